(** Proofs for C87_rules: the model of Stacked Borrows forbids what it should. *)
From Verif Require Import Prelude Chars Utils Candidate MatchedRanges Query Parser Scoring Slab Fzf FzfV1 FzfV2 Api History MemoryMetric Borrows BorrowsMetric BorrowRules PreludeProofs CostBounds ShapeProofs.
Local Open Scope nat_scope.

(** ** Stacks *)

Lemma write_access_in t : forall s s', write_access t s = Ok s' -> incl s' s /\ In (Uniq t) s'.
Proof.
  induction s as [|[t'|t'] s IH]; cbn [write_access]; intros s' H; [discriminate| |].
  - destruct (t =? t') eqn:E.
    + apply Nat.eqb_eq in E as ->. injection H as <-. split; [apply incl_refl|left; reflexivity].
    + apply IH in H as [H1 H2]. split; [apply incl_tl; exact H1|exact H2].
  - apply IH in H as [H1 H2]. split; [apply incl_tl; exact H1|exact H2].
Qed.

Lemma read_access_in t : forall s s', read_access t s = Ok s' -> incl s' s /\ exists i, In i s /\ item_tag i = t.
Proof.
  induction s as [|[t'|t'] s IH]; cbn [read_access]; intros s' H; [discriminate| |].
  - destruct (t =? t') eqn:E.
    + apply Nat.eqb_eq in E as ->. injection H as <-. split; [apply incl_refl|]. exists (Uniq t'). split; [left|]; reflexivity.
    + apply IH in H as [H1 (i & H2 & H3)]. split; [apply incl_tl; exact H1|]. exists i. split; [right; exact H2|exact H3].
  - destruct (t =? t') eqn:E.
    + apply Nat.eqb_eq in E as ->. injection H as <-. split; [apply incl_refl|]. exists (Shr t'). split; [left|]; reflexivity.
    + apply ok_bind in H as (r & H & K). injection K as <-. apply IH in H as [H1 (i & H2 & H3)]. split.
      * intros y [<-|Hy]; [left; reflexivity|right; apply H1; exact Hy].
      * exists i. split; [right; exact H2|exact H3].
Qed.

Lemma read_access_absent t s : (forall i, In i s -> item_tag i <> t) -> read_access t s = Panic.
Proof.
  induction s as [|[t'|t'] s IH]; intros H; [reflexivity|..]; cbn [read_access];
    (destruct (Nat.eqb_spec t t') as [->|]; [destruct (H _ (or_introl eq_refl)); reflexivity|]);
    rewrite IH by (intros i Hi; apply H; right; exact Hi); reflexivity.
Qed.

Lemma write_access_absent t s : (forall i, In i s -> item_tag i <> t) -> write_access t s = Panic.
Proof.
  induction s as [|[t'|t'] s IH]; intros H; [reflexivity|..]; cbn [write_access].
  - destruct (Nat.eqb_spec t t') as [->|]; [destruct (H _ (or_introl eq_refl)); reflexivity|].
    apply IH. intros i Hi. apply H. right. exact Hi.
  - apply IH. intros i Hi. apply H. right. exact Hi.
Qed.

(** ** Buffers *)

Definition stacks_ok {A} (P : stack -> Prop) (l : cells A) : Prop := Forall (fun e => P (snd e)) l.

(** An access which succeeds takes the stacks one by one. *)
Lemma access_ok {A} f push (l : cells A) : forall l', access f push l = Ok l' ->
  Forall2 (fun e e' => fst e' = fst e /\ exists s, f (snd e) = Ok s /\ snd e' = push ++ s) l l'.
Proof.
  induction l as [|[x s] l IH]; intros l' H; cbn [access] in H; [injection H as <-; constructor|].
  apply ok_bind in H as (s1 & E1 & H). apply ok_bind in H as (r & E2 & H). injection H as <-.
  constructor; [|apply IH; exact E2]. cbn. split; [reflexivity|]. exists s1. auto.
Qed.

Lemma access_range_ok {A} f push (l : cells A) i n l' : access_range f push l i n = Ok l' ->
  i + n <= length l /\ exists m, access f push (firstn n (skipn i l)) = Ok m /\ l' = firstn i l ++ m ++ skipn (i + n) l.
Proof.
  unfold access_range. destruct (i + n <=? length l) eqn:E; [|discriminate]. apply Nat.leb_le in E.
  intros H. apply ok_bind in H as (m & E1 & H). injection H as <-. split; [exact E|]. eauto.
Qed.

Lemma forall_parts {B} (Q : B -> Prop) i n l : Forall Q l -> Forall Q (firstn i l) /\ Forall Q (firstn n (skipn i l)) /\ Forall Q (skipn (i + n) l).
Proof.
  intros H. rewrite Forall_forall in H. repeat split; apply Forall_forall; intros x Hx; apply H.
  - rewrite <- (firstn_skipn i l). apply in_or_app. left. exact Hx.
  - rewrite <- (firstn_skipn i l). apply in_or_app. right. rewrite <- (firstn_skipn n (skipn i l)). apply in_or_app. left. exact Hx.
  - rewrite <- (firstn_skipn (i + n) l). apply in_or_app. right. exact Hx.
Qed.

(** A property of all stacks of a buffer which the access keeps *)
Lemma access_range_stacks {A} (P Q : stack -> Prop) f push (l : cells A) i n l' :
  access_range f push l i n = Ok l' -> stacks_ok P l -> (forall s, P s -> Q s) ->
  (forall s s', P s -> f s = Ok s' -> Q (push ++ s')) -> stacks_ok Q l'.
Proof.
  intros H Hp HPQ Hf. apply access_range_ok in H as (_ & m & E & ->). unfold stacks_ok in *.
  destruct (forall_parts _ i n l Hp) as (H1 & H2 & H3). apply access_ok in E.
  apply Forall_app. split; [eapply Forall_impl; [|exact H1]; cbn beta; auto|]. apply Forall_app. split.
  - clear H1 H3. induction E as [|e e' l1 l2 (_ & s & E1 & E2) _ IH]; [constructor|]. inversion H2; subst. constructor; [|auto].
    rewrite E2. eapply Hf; eauto.
  - eapply Forall_impl; [|exact H3]; cbn beta; auto.
Qed.

(** The same for the whole heap *)
Definition heap_ok {A} (P : stack -> Prop) (h : bheap A) : Prop := forall l, In (Some l) (hp h) -> stacks_ok P l.

Lemma fresh_heap {A} (h : bheap A) : fresh h <-> heap_ok (Forall (fun i => item_tag i < hp_tag h)) h.
Proof.
  unfold fresh, heap_ok, stacks_ok. split.
  - intros H l Hl. apply Forall_forall. intros [x s] Hx. apply Forall_forall. intros i Hi. eapply H; eauto.
  - intros H l x s i Hl Hx Hi. specialize (H l Hl). rewrite Forall_forall in H. specialize (H _ Hx). cbn in H.
    rewrite Forall_forall in H. auto.
Qed.

Lemma in_upd {B} (l : list B) a x y : In y (upd l a x) -> y = x \/ In y l.
Proof.
  revert a. induction l as [|z l IH]; intros [|a] H; cbn in *; auto.
  - destruct H as [H|H]; auto.
  - destruct H as [H|H]; [auto|]. apply IH in H as [H|H]; auto.
Qed.

Lemma cells_at_in {A} (h : bheap A) a l : cells_at h a = Ok l -> In (Some l) (hp h).
Proof.
  unfold cells_at. destruct (nth_error (hp h) a) as [[l'|]|] eqn:E; try discriminate. intros H. injection H as ->.
  eapply nth_error_In. exact E.
Qed.

Lemma heap_weaken {A} (P Q : stack -> Prop) (h : bheap A) t : (forall s, P s -> Q s) -> heap_ok P h -> heap_ok Q (MkHeap (hp h) t).
Proof. intros HPQ H l Hl. eapply Forall_impl; [|exact (H l Hl)]. cbn beta. auto. Qed.

Lemma use_heap {A} (P Q : stack -> Prop) f push (h : bheap A) r i n h' :
  use f push h r i n = Ok h' -> heap_ok P h -> (forall s, P s -> Q s) -> (forall s s', P s -> f s = Ok s' -> Q (push ++ s')) ->
  heap_ok Q h' /\ hp_tag h' = hp_tag h.
Proof.
  unfold use. destruct (n =? 0).
  - intros H Hp HPQ _. injection H as <-. split; [|reflexivity]. intros l Hl. eapply Forall_impl; [|exact (Hp l Hl)]. cbn beta. auto.
  - intros H Hp HPQ Hf. apply ok_bind in H as (l & E1 & H). apply ok_bind in H as (l' & E2 & H). injection H as <-.
    split; [|reflexivity]. intros l0 Hl. cbn [hp] in Hl. apply in_upd in Hl as [Hl|Hl].
    + injection Hl as ->. eapply access_range_stacks; [exact E2|apply Hp, cells_at_in with (1 := E1)|auto|auto].
    + eapply Forall_impl; [|exact (Hp l0 Hl)]. cbn beta. auto.
Qed.

Notation below n := (Forall (fun i : item => item_tag i < n)).

Lemma below_mono n n' s : n <= n' -> below n s -> below n' s.
Proof. intros H. apply Forall_impl. intros i Hi. lia. Qed.

Lemma below_incl n s s' : incl s' s -> below n s -> below n s'.
Proof. rewrite !Forall_forall. auto. Qed.

(** ** Every operation keeps tags fresh *)

Lemma use_fresh {A} f push (h : bheap A) r i n h' : fresh h ->
  (forall s s', f s = Ok s' -> incl s' s) -> below (hp_tag h) push ->
  use f push h r i n = Ok h' -> fresh h' /\ hp_tag h' = hp_tag h.
Proof.
  intros F Hf Hp E. apply fresh_heap in F. destruct (use_heap _ (below (hp_tag h)) _ _ _ _ _ _ _ E F) as [H1 H2]; [auto| |].
  - intros s s' Hs E'. apply Forall_app. split; [exact Hp|]. eapply below_incl; eauto.
  - split; [|exact H2]. apply fresh_heap. rewrite H2. exact H1.
Qed.

Lemma next_fresh {A} (h : bheap A) : fresh h -> fresh (next_tag h).
Proof. intros F l x s i H1 H2 H3. specialize (F l x s i H1 H2 H3). cbn. lia. Qed.

Lemma reborrow_fresh {A} (h : bheap A) r i n r' h' : fresh h -> reborrow h r i n = Ok (r', h') ->
  fresh h' /\ hp_tag h' = S (hp_tag h) /\ b_tag r' = hp_tag h.
Proof.
  intros F. unfold reborrow. destruct (_ <=? _); [|discriminate]. intros H. apply ok_bind in H as (h1 & E & H). injection H as <- <-.
  apply use_fresh in E as [E1 E2]; [|apply next_fresh; exact F|intros s s' K; apply read_access_in in K; tauto|repeat constructor; cbn; lia].
  split; [exact E1|]. split; [rewrite E2; cbn; lia|reflexivity].
Qed.

Lemma reborrow_mut_fresh {A} (h : bheap A) r i n r' h' : fresh h -> reborrow_mut h r i n = Ok (r', h') ->
  fresh h' /\ hp_tag h' = S (hp_tag h) /\ b_tag r' = hp_tag h.
Proof.
  intros F. unfold reborrow_mut. destruct (_ <=? _); [|discriminate]. intros H. apply ok_bind in H as (h1 & E & H). injection H as <- <-.
  apply use_fresh in E as [E1 E2]; [|apply next_fresh; exact F|intros s s' K; apply write_access_in in K; tauto|repeat constructor; cbn; lia].
  split; [exact E1|]. split; [rewrite E2; cbn; lia|reflexivity].
Qed.

Lemma write_fresh {A} (h : bheap A) r i x h' : fresh h -> write h r i x = Ok h' -> fresh h' /\ hp_tag h' = hp_tag h.
Proof.
  intros F. unfold write. destruct (_ <? _); [|discriminate]. intros H. apply ok_bind in H as (h1 & E & H).
  apply use_fresh in E as [E1 E2]; [|exact F|intros s s' K; apply write_access_in in K; tauto|constructor].
  apply ok_bind in H as (l & El & H). destruct (nth_error l (b_start r + i)) as [[y s]|] eqn:En; [|discriminate]. injection H as <-.
  split; [|exact E2]. intros l0 z s0 it Hl Hz Hi. cbn [hp hp_tag] in *. apply in_upd in Hl as [Hl|Hl]; [|eapply E1; eauto].
  injection Hl as ->. apply in_upd in Hz as [Hz|Hz].
  - injection Hz as -> ->. eapply E1; [apply cells_at_in with (1 := El)|eapply nth_error_In; exact En|exact Hi].
  - eapply E1; [apply cells_at_in with (1 := El)|exact Hz|exact Hi].
Qed.

Lemma read_fresh {A} (h : bheap A) r l h' : fresh h -> read h r = Ok (l, h') -> fresh h' /\ hp_tag h' = hp_tag h.
Proof.
  intros F. unfold read. intros H. apply ok_bind in H as (h1 & E & H).
  apply use_fresh in E as [E1 E2]; [|exact F|intros s s' K; apply read_access_in in K; tauto|constructor].
  destruct (_ =? _); [injection H as _ <-; auto|]. apply ok_bind in H as (l' & _ & H). injection H as _ <-. auto.
Qed.

Lemma vec_mut_fresh {A} (h : bheap A) v r h' : fresh h -> vec_mut h v = Ok (r, h') ->
  fresh h' /\ hp_tag h' = S (hp_tag h) /\ b_tag r = hp_tag h.
Proof. intros F H. unfold vec_mut in H. apply ok_bind in H as (p & _ & H). eapply reborrow_mut_fresh; eauto. Qed.

Lemma vec_ref_fresh {A} (h : bheap A) v r h' : fresh h -> vec_ref h v = Ok (r, h') ->
  fresh h' /\ hp_tag h' = S (hp_tag h) /\ b_tag r = hp_tag h.
Proof. intros F H. unfold vec_ref in H. apply ok_bind in H as (p & _ & H). eapply reborrow_fresh; eauto. Qed.

Lemma vec_set_fresh {A} (h : bheap A) v i x h' : fresh h -> vec_set h v i x = Ok h' -> fresh h'.
Proof.
  intros F H. unfold vec_set in H. apply ok_bind in H as ([r h1] & E1 & H). apply ok_bind in H as ([r' h2] & E2 & H).
  apply vec_mut_fresh in E1 as (F1 & _); [|exact F]. apply reborrow_mut_fresh in E2 as (F2 & _); [|exact F1].
  apply write_fresh in H as [H _]; assumption.
Qed.

Lemma vec_slice_fresh {A} (h : bheap A) v i j r h' : fresh h -> vec_slice h v i j = Ok (r, h') ->
  fresh h' /\ hp_tag h' = S (S (hp_tag h)) /\ b_tag r = S (hp_tag h).
Proof.
  intros F H. unfold vec_slice in H. destruct (_ <=? _); [|discriminate]. apply ok_bind in H as ([r1 h1] & E1 & H).
  apply vec_ref_fresh in E1 as (F1 & T1 & _); [|exact F]. apply reborrow_fresh in H as (F2 & T2 & T3); [|exact F1].
  split; [exact F2|]. split; congruence.
Qed.

Lemma subslice_fresh {A} (h : bheap A) r i j r' h' : fresh h -> subslice h r i j = Ok (r', h') ->
  fresh h' /\ hp_tag h' = S (S (hp_tag h)) /\ b_tag r' = S (hp_tag h).
Proof.
  intros F H. unfold subslice in H. destruct (_ <=? _); [|discriminate]. apply ok_bind in H as ([r1 h1] & E1 & H).
  apply reborrow_fresh in E1 as (F1 & T1 & _); [|exact F]. apply reborrow_fresh in H as (F2 & T2 & T3); [|exact F1].
  split; [exact F2|]. split; congruence.
Qed.

Lemma vec_new_fresh {A} (h : bheap A) l : fresh h -> fresh (snd (vec_new h l)).
Proof.
  intros F l0 x s i Hl Hx Hi. cbn [vec_new snd hp hp_tag] in *. apply in_app_or in Hl as [Hl|[Hl|[]]].
  - specialize (F _ _ _ _ Hl Hx Hi). lia.
  - injection Hl as <-. apply in_map_iff in Hx as (y & Hy & _). injection Hy as _ <-. destruct Hi as [<-|[]]. cbn. lia.
Qed.

Lemma vec_clone_fresh {A} (h : bheap A) v r : fresh h -> vec_clone h v = Ok r -> fresh (snd r).
Proof.
  intros F H. unfold vec_clone in H. apply ok_bind in H as ([r1 h1] & E1 & H). apply ok_bind in H as ([l h2] & E2 & H). injection H as <-.
  apply vec_ref_fresh in E1 as (F1 & _); [|exact F]. apply read_fresh in E2 as [F2 _]; [|exact F1]. apply vec_new_fresh. exact F2.
Qed.

Lemma vec_drop_fresh {A} (h : bheap A) v h' : fresh h -> vec_drop h v = Ok h' -> fresh h' /\ hp_tag h' = hp_tag h.
Proof.
  intros F H. unfold vec_drop in H. apply ok_bind in H as (p & _ & H). apply ok_bind in H as (h1 & E & H). injection H as <-.
  apply use_fresh in E as [E1 E2]; [|exact F|intros s s' K; apply write_access_in in K; tauto|constructor].
  split; [|exact E2]. intros l x s i Hl. cbn [hp hp_tag] in *. apply in_upd in Hl as [Hl|Hl]; [discriminate|]. eapply E1; eauto.
Qed.

Lemma vec_grow_fresh {A} g (h : bheap A) v n d r : fresh h -> v_tag v < hp_tag h -> vec_grow g h v n d = Ok r -> fresh (snd r).
Proof.
  intros F Ht H. unfold vec_grow in H. apply ok_bind in H as (l & El & H).
  destruct (_ <? _); [|injection H as <-; exact F]. destruct g.
  - injection H as <-. intros l0 x s i Hl Hx Hi. cbn [snd hp hp_tag] in *. apply in_upd in Hl as [Hl|Hl]; [|eapply F; eauto].
    injection Hl as ->. apply in_app_or in Hx as [Hx|Hx]; [eapply F; [apply cells_at_in with (1 := El)|eauto|auto]|].
    apply in_map_iff in Hx as (y & Hy & _). injection Hy as _ <-. destruct Hi as [<-|[]]. exact Ht.
  - apply ok_bind in H as (h1 & E & H). injection H as <-. apply vec_drop_fresh in E as [F1 _]; [|exact F].
    intros l0 x s i Hl Hx Hi. cbn [snd hp hp_tag] in *. apply in_upd in Hl as [Hl|Hl].
    + injection Hl as ->. apply in_map_iff in Hx as (y & Hy & _). injection Hy as _ <-. destruct Hi as [<-|[]]. cbn. lia.
    + specialize (F1 _ _ _ _ Hl Hx Hi). lia.
  - apply ok_bind in H as (h1 & E & H). injection H as <-. apply vec_drop_fresh in E as [F1 _]; [|exact F]. apply vec_new_fresh. exact F1.
Qed.

(** ** What is forbidden *)

(** No stack of the buffer at [a] mentions [t]. *)
Definition absent {A} (t : nat) (h : bheap A) (a : nat) : Prop :=
  forall l, cells_at h a = Ok l -> stacks_ok (Forall (fun i => item_tag i <> t)) l.

Lemma access_absent {A} f push (l : cells A) t : 0 < length l -> stacks_ok (Forall (fun i => item_tag i <> t)) l ->
  (forall s, Forall (fun i => item_tag i <> t) s -> f s = Panic) -> access f push l = Panic.
Proof.
  destruct l as [|[x s] l]; cbn [length]; [lia|]. intros _ H Hf. inversion H; subst. cbn [access]. rewrite Hf by assumption. reflexivity.
Qed.

Lemma use_absent {A} f push (h : bheap A) r i n t : 0 < n -> absent t h (b_addr r) ->
  (forall s, Forall (fun i => item_tag i <> t) s -> f s = Panic) -> use f push h r i n = Panic.
Proof.
  intros Hn Ha Hf. unfold use. destruct (n =? 0) eqn:E; [apply Nat.eqb_eq in E; lia|].
  destruct (cells_at h (b_addr r)) as [l| |] eqn:El; cbn [bind].
  - unfold access_range. destruct (_ <=? _) eqn:E1; [|reflexivity]. apply Nat.leb_le in E1.
    rewrite access_absent with (t := t); [reflexivity| | |exact Hf].
    + rewrite firstn_length, skipn_length. lia.
    + apply (forall_parts _ (b_start r + i) n l (Ha l El)).
  - reflexivity.
  - unfold cells_at in El. destruct (nth_error _ _) as [[?|]|]; discriminate.
Qed.

Lemma read_absent {A} (h : bheap A) r : 0 < b_len r -> absent (b_tag r) h (b_addr r) -> read h r = Panic.
Proof.
  intros Hn Ha. unfold read. rewrite use_absent with (t := b_tag r); [reflexivity|exact Hn|exact Ha|].
  intros s Hs. apply read_access_absent. rewrite Forall_forall in Hs. exact Hs.
Qed.

Lemma write_absent {A} (h : bheap A) r i x : absent (b_tag r) h (b_addr r) -> write h r i x = Panic.
Proof.
  intros Ha. unfold write. destruct (_ <? _); [|reflexivity]. rewrite use_absent with (t := b_tag r); [reflexivity|lia|exact Ha|].
  intros s Hs. apply write_access_absent. rewrite Forall_forall in Hs. exact Hs.
Qed.

Lemma nth_upd_cases {B} (l : list B) a x b y : nth_error (upd l a x) b = Some y -> (a = b /\ y = x) \/ (a <> b /\ nth_error l b = Some y).
Proof.
  revert a b. induction l as [|z l IH]; intros a b H.
  - destruct a, b; discriminate H.
  - destruct a, b; cbn [upd nth_error] in *.
    + injection H as <-. auto.
    + right. split; [lia|exact H].
    + right. split; [lia|exact H].
    + destruct (IH a b H) as [[? ?]|[? ?]]; [left|right]; split; auto.
Qed.

Lemma cells_upd {A} (h : bheap A) a l t b l' : cells_at (MkHeap (upd (hp h) a (Some l)) t) b = Ok l' ->
  (a = b /\ l' = l) \/ (a <> b /\ cells_at h b = Ok l').
Proof.
  unfold cells_at. cbn [hp]. destruct (nth_error (upd (hp h) a (Some l)) b) as [[l0|]|] eqn:E; try discriminate.
  intros H. injection H as ->. apply nth_upd_cases in E as [[E1 E2]|[E1 E2]].
  - left. split; [exact E1|]. injection E2 as <-. reflexivity.
  - right. rewrite E2. auto.
Qed.

(** An access which puts other tags on the stacks *)
Lemma use_keeps_absent {A} f push (h : bheap A) r i n h' t a : use f push h r i n = Ok h' -> absent t h a ->
  (forall s s', f s = Ok s' -> incl s' s) -> Forall (fun i => item_tag i <> t) push -> absent t h' a.
Proof.
  intros E Ha Hf Hp. unfold use in E. destruct (n =? 0); [injection E as <-; exact Ha|].
  apply ok_bind in E as (l & E1 & E). apply ok_bind in E as (l' & E2 & E). injection E as <-.
  intros l0 E3. apply cells_upd in E3 as [[E3 ->]|[E3 E4]]; [|apply Ha; exact E4]. rewrite <- E3 in Ha.
  eapply access_range_stacks; [exact E2|apply Ha; exact E1|auto|].
  intros s s' Hs Es. apply Forall_app. split; [exact Hp|]. rewrite Forall_forall in *. intros x Hx. apply Hs. eapply Hf; eauto.
Qed.

Lemma next_absent {A} (h : bheap A) t a : absent t h a -> absent t (next_tag h) a.
Proof. intros H. exact H. Qed.

Lemma reborrow_mut_absent {A} (h : bheap A) r i n r' h' t a : reborrow_mut h r i n = Ok (r', h') -> absent t h a -> t < hp_tag h -> absent t h' a.
Proof.
  unfold reborrow_mut. destruct (_ <=? _); [|discriminate]. intros H Ha Ht. apply ok_bind in H as (h1 & E & H). injection H as _ <-.
  eapply use_keeps_absent; [exact E|apply next_absent; exact Ha|intros s s' K; apply write_access_in in K; tauto|repeat constructor; cbn; lia].
Qed.

Lemma write_keeps_absent {A} (h : bheap A) r i x h' t a : write h r i x = Ok h' -> absent t h a -> absent t h' a.
Proof.
  unfold write. destruct (_ <? _); [|discriminate]. intros H Ha. apply ok_bind in H as (h1 & E & H).
  apply ok_bind in H as (l & El & H). destruct (nth_error l (b_start r + i)) as [[y s]|] eqn:En; [|discriminate]. injection H as <-.
  assert (Ha1 : absent t h1 a) by (eapply use_keeps_absent; [exact E|exact Ha|intros s0 s' K; apply write_access_in in K; tauto|constructor]).
  intros l0 E3. apply cells_upd in E3 as [[E3 ->]|[E3 E4]]; [|apply Ha1; exact E4]. rewrite <- E3 in Ha1. specialize (Ha1 l El).
  unfold stacks_ok in *. rewrite Forall_forall in *. intros e He. apply in_upd in He as [->|He]; [|auto].
  apply nth_error_In in En. exact (Ha1 _ En).
Qed.

(** Below what is new, the stacks of a buffer are those of before. *)
Definition layered (t0 : nat) (s : stack) : Prop := exists new old, s = new ++ old /\ Forall (fun i => t0 <= item_tag i) new /\ below t0 old.

Lemma layered_below t0 s : below t0 s -> layered t0 s.
Proof. intros H. exists [], s. repeat split; [constructor|exact H]. Qed.

Lemma read_layered t t0 : forall s s', layered t0 s -> read_access t s = Ok s' -> layered t0 s'.
Proof.
  intros s s' (new & old & -> & H1 & H2). revert s'. induction new as [|i new IH]; intros s' H.
  - apply layered_below. apply read_access_in in H as [H _]. eapply below_incl; eauto.
  - inversion H1 as [|? ? Hi Hn]; subst. destruct i as [t'|t']; cbn [app read_access] in H; destruct (t =? t') eqn:E.
    + injection H as <-. exists (Uniq t' :: new), old. auto.
    + apply IH; assumption.
    + injection H as <-. exists (Shr t' :: new), old. auto.
    + apply ok_bind in H as (r & H & K). injection K as <-. destruct (IH Hn r H) as (n' & o' & -> & K1 & K2).
      exists (Shr t' :: n'), o'. repeat split; [constructor; assumption|exact K2].
Qed.

Lemma write_layered t t0 : t < t0 -> forall s s', layered t0 s -> write_access t s = Ok s' -> below t0 s'.
Proof.
  intros Ht s s' (new & old & -> & H1 & H2). revert s'. induction new as [|i new IH]; intros s' H.
  - apply write_access_in in H as [H _]. eapply below_incl; eauto.
  - inversion H1 as [|? ? Hi Hn]; subst. destruct i as [t'|t']; cbn [app write_access] in H; [|apply IH; assumption].
    destruct (t =? t') eqn:E; [apply Nat.eqb_eq in E; cbn in Hi; lia|]. apply IH; assumption.
Qed.

Lemma push_layered t0 t s : t0 <= t -> layered t0 s -> layered t0 ([Shr t] ++ s).
Proof. intros Ht (n & o & -> & H1 & H2). exists (Shr t :: n), o. repeat split; [constructor; [exact Ht|exact H1]|exact H2]. Qed.

Lemma push_layered_mut t0 t s : t0 <= t -> layered t0 s -> layered t0 ([Uniq t] ++ s).
Proof. intros Ht (n & o & -> & H1 & H2). exists (Uniq t :: n), o. repeat split; [constructor; [exact Ht|exact H1]|exact H2]. Qed.

Lemma reborrow_layered {A} t0 (h : bheap A) r i n r' h' : reborrow h r i n = Ok (r', h') -> t0 <= hp_tag h ->
  heap_ok (layered t0) h -> heap_ok (layered t0) h' /\ hp_tag h' = S (hp_tag h) /\ r' = MkB (b_addr r) (b_start r + i) n (hp_tag h).
Proof.
  unfold reborrow. destruct (_ <=? _); [|discriminate]. intros H Ht Hl. apply ok_bind in H as (h1 & E & H). injection H as <- <-.
  destruct (use_heap (layered t0) (layered t0) _ _ _ _ _ _ _ E Hl) as [H1 H2]; [auto| |].
  - intros s s' Hs Es. apply push_layered; [exact Ht|]. eapply read_layered; eauto.
  - split; [exact H1|]. split; [rewrite H2; cbn; lia|reflexivity].
Qed.

Lemma reborrow_len {A} (h : bheap A) r i n r' h' : reborrow h r i n = Ok (r', h') -> forall a,
  (exists l, cells_at h a = Ok l) -> exists l l', cells_at h a = Ok l /\ cells_at h' a = Ok l' /\ length l' = length l.
Proof.
  unfold reborrow. destruct (_ <=? _); [|discriminate]. intros H a (l & El). apply ok_bind in H as (h1 & E & H). injection H as _ <-.
  exists l. unfold use in E. destruct (n =? 0); [injection E as <-; exists l; auto|].
  apply ok_bind in E as (l1 & E1 & E). apply ok_bind in E as (l2 & E2 & E). injection E as <-.
  apply access_range_ok in E2 as (Hle & m & Em & E2). apply access_ok in Em. apply Forall2_len in Em.
  destruct (Nat.eq_dec (b_addr r) a) as [<-|Ne].
  - change (cells_at (next_tag h) (b_addr r)) with (cells_at h (b_addr r)) in E1. rewrite E1 in El. injection El as <-.
    exists l2. split; [exact E1|]. split.
    + unfold cells_at in *. cbn [hp next_tag] in *. destruct (nth_error (hp h) (b_addr r)) as [[l3|]|] eqn:E3; try discriminate.
      assert (Hn : nth_error (upd (hp h) (b_addr r) (Some l2)) (b_addr r) = Some (Some l2)).
      { clear - E3. revert E3. generalize (b_addr r). generalize (hp h). induction l as [|z l IH]; intros [|a]; cbn; try discriminate; auto. }
      rewrite Hn. reflexivity.
    + rewrite E2, !app_length, firstn_length, skipn_length. rewrite firstn_length, skipn_length in Em. lia.
  - exists l. split; [exact El|]. split; [|reflexivity]. unfold cells_at in *. cbn [hp next_tag] in *.
    assert (Hn : nth_error (upd (hp h) (b_addr r) (Some l2)) a = nth_error (hp h) a).
    { clear - Ne. revert a Ne. generalize (b_addr r). generalize (hp h). induction l as [|z l IH]; intros [|b] [|a] Ne; cbn; try reflexivity; try lia. apply IH. lia. }
    rewrite Hn. exact El.
Qed.

(** A tag with which something could be read is an old one. *)
Lemma use_read_tag {A} push (h : bheap A) t r i n h' m : use (read_access t) push h r i n = Ok h' -> 0 < n ->
  heap_ok (below m) h -> t < m.
Proof.
  intros E Hn F. unfold use in E. destruct (n =? 0) eqn:En; [apply Nat.eqb_eq in En; lia|].
  apply ok_bind in E as (l & E1 & E). apply ok_bind in E as (l' & E2 & _). apply cells_at_in in E1. specialize (F l E1).
  apply access_range_ok in E2 as (Hle & m' & Em & _). apply access_ok in Em.
  destruct (forall_parts _ (b_start r + i) n l F) as (_ & H2 & _).
  assert (Hlen : length (firstn n (skipn (b_start r + i) l)) = n) by (rewrite firstn_length, skipn_length; lia).
  destruct Em as [|e e' l1 l2 (_ & s & Es & _) _]; [cbn in Hlen; lia|]. inversion H2; subst.
  apply read_access_in in Es as (_ & it & Hi & <-). rewrite Forall_forall in *. auto.
Qed.

Lemma slice_facts {A} (h : bheap A) v i j r h1 : fresh h -> vec_slice h v i j = Ok (r, h1) -> i < j ->
  v_tag v < hp_tag h /\ heap_ok (layered (hp_tag h)) h1 /\ hp_tag h1 = S (S (hp_tag h)) /\
  b_addr r = v_addr v /\ b_len r = j - i /\ b_tag r = S (hp_tag h).
Proof.
  intros F H Hij. unfold vec_slice in H. destruct (_ <=? _); [|discriminate]. apply ok_bind in H as ([r1 h0] & E1 & H).
  unfold vec_ref in E1. apply ok_bind in E1 as (p & Ep & E1). unfold vec_ptr in Ep. apply ok_bind in Ep as (l & El & Ep). injection Ep as <-.
  cbn [b_len] in E1. apply fresh_heap in F.
  assert (L0 : heap_ok (layered (hp_tag h)) h).
  { intros l0 Hl. eapply Forall_impl; [|exact (F l0 Hl)]. cbn beta. intros e. apply layered_below. }
  destruct (reborrow_layered (hp_tag h) _ _ _ _ _ _ E1 (le_n _) L0) as (L1 & T1 & ->).
  destruct (reborrow_layered (hp_tag h) _ _ _ _ _ _ H ltac:(lia) L1) as (L2 & T2 & ->).
  cbn [b_addr b_start b_len b_tag] in *. split; [|repeat split; auto; congruence].
  assert (Hlen : 0 < length l).
  { unfold reborrow in H. cbn [b_len] in H. destruct (i + (j - i) <=? length l) eqn:E; [|discriminate]. apply Nat.leb_le in E. lia. }
  unfold reborrow in E1. cbn [b_len b_tag] in E1. destruct (_ <=? _); [|discriminate]. apply ok_bind in E1 as (h' & E1 & _).
  eapply use_read_tag; [exact E1|exact Hlen|]. exact F.
Qed.

(** After a write to all of a buffer *)
Lemma use_all_write {A} (h : bheap A) t t0 push v l h' : cells_at h (v_addr v) = Ok l -> heap_ok (layered t0) h -> t < t0 ->
  use (write_access t) push h (MkB (v_addr v) 0 (length l) (v_tag v)) 0 (length l) = Ok h' ->
  forall l', cells_at h' (v_addr v) = Ok l' -> stacks_ok (fun s => exists s', s = push ++ s' /\ below t0 s') l'.
Proof.
  intros El L Ht E l' El'. unfold use in E. destruct (length l =? 0) eqn:En.
  - injection E as <-. rewrite El in El'. injection El' as <-. apply Nat.eqb_eq in En. destruct l; [constructor|discriminate].
  - cbn [b_addr b_start] in E. rewrite El in E. cbn [bind] in E. apply ok_bind in E as (l2 & E2 & E). injection E as <-.
    apply cells_upd in El' as [[_ ->]|[Ne _]]; [|congruence].
    apply access_range_ok in E2 as (_ & m & Em & ->). cbn [Nat.add] in *. rewrite skipn_O, firstn_all in Em. cbn [firstn app].
    rewrite skipn_all, app_nil_r. apply access_ok in Em. pose proof (L l (cells_at_in _ _ _ El)) as Hl.
    clear - Em Hl Ht. induction Em as [|e e' l1 l2 (_ & s & E1 & E2) _ IH]; [constructor|]. inversion Hl; subst. constructor; [|exact (IH H2)].
    exists s. split; [exact E2|]. eapply write_layered; eauto.
Qed.

Lemma slice_mut_absent {A} (h : bheap A) v i j r h1 w h2 : fresh h -> vec_slice h v i j = Ok (r, h1) -> i < j ->
  vec_mut h1 v = Ok (w, h2) -> absent (b_tag r) h2 (b_addr r) /\ b_tag r < hp_tag h2 /\ 0 < b_len r.
Proof.
  intros F H Hij Hm. destruct (slice_facts _ _ _ _ _ _ F H Hij) as (Hv & L & T & Ea & Eb & Et).
  unfold vec_mut in Hm. apply ok_bind in Hm as (p & Ep & Hm). unfold vec_ptr in Ep. apply ok_bind in Ep as (l & El & Ep). injection Ep as <-.
  cbn [b_len] in Hm. unfold reborrow_mut in Hm. destruct (_ <=? _); [|discriminate]. cbn [b_tag] in Hm.
  apply ok_bind in Hm as (h3 & E & Hm). injection Hm as _ <-.
  assert (Et2 : hp_tag h3 = S (hp_tag h1)).
  { unfold use in E. destruct (length l =? 0); [injection E as <-; cbn; lia|]. apply ok_bind in E as (? & _ & E). apply ok_bind in E as (? & _ & E). injection E as <-. cbn. lia. }
  split; [|split; lia]. rewrite Ea, Et. intros l' El'.
  eapply use_all_write with (t0 := hp_tag h) in E; [|exact El|exact L|exact Hv|exact El'].
  eapply Forall_impl; [|exact E]. cbn beta. intros e (s' & -> & Hs). constructor; [cbn; lia|].
  eapply Forall_impl; [|exact Hs]. cbn beta. intros it Hi. lia.
Qed.

(** Once the Vec has been borrowed mutably, what it lent before is of no use. *)
Lemma c87_borrowed {A} (h : bheap A) v i j r h1 w h2 : fresh h -> vec_slice h v i j = Ok (r, h1) -> i < j ->
  vec_mut h1 v = Ok (w, h2) -> read h2 r = Panic.
Proof.
  intros F H Hij Hm. destruct (slice_mut_absent _ _ _ _ _ _ _ _ F H Hij Hm) as (Ha & _ & Hl). apply read_absent; assumption.
Qed.

Lemma c87_set {A} (h : bheap A) v i j r h1 k x h2 : fresh h -> vec_slice h v i j = Ok (r, h1) -> i < j ->
  vec_set h1 v k x = Ok h2 -> read h2 r = Panic.
Proof.
  intros F H Hij Hs. unfold vec_set in Hs. apply ok_bind in Hs as ([w h3] & E1 & Hs). apply ok_bind in Hs as ([w' h4] & E2 & Hs).
  destruct (slice_mut_absent _ _ _ _ _ _ _ _ F H Hij E1) as (Ha & Ht & Hl). apply read_absent; [exact Hl|].
  eapply write_keeps_absent; [exact Hs|]. eapply reborrow_mut_absent; eauto.
Qed.

Lemma nth_upd_some {B} (l : list B) a x y : nth_error l a = Some y -> nth_error (upd l a x) a = Some x.
Proof. revert a. induction l as [|z l IH]; intros [|a]; cbn; try discriminate; auto. Qed.

Lemma use_at {A} f push (h : bheap A) r i n h' a l : use f push h r i n = Ok h' -> cells_at h a = Ok l -> exists l', nth_error (hp h') a = Some (Some l').
Proof.
  intros E El. unfold cells_at in El. destruct (nth_error (hp h) a) as [[l0|]|] eqn:En; try discriminate.
  unfold use in E. destruct (n =? 0); [injection E as <-; eauto|]. apply ok_bind in E as (l1 & _ & E). apply ok_bind in E as (l2 & _ & E). injection E as <-.
  cbn [hp]. destruct (Nat.eq_dec (b_addr r) a) as [<-|Ne].
  - exists l2. eapply nth_upd_some. exact En.
  - exists l0. rewrite <- En. clear - Ne. revert a Ne. generalize (b_addr r). generalize (hp h).
    induction l as [|z l IH]; intros [|b] [|a] Ne; cbn; try reflexivity; try lia. apply IH. lia.
Qed.

Lemma drop_none {A} (h : bheap A) v h' : vec_drop h v = Ok h' -> nth_error (hp h') (v_addr v) = Some None.
Proof.
  intros H. unfold vec_drop in H. apply ok_bind in H as (p & Ep & H). apply ok_bind in H as (h1 & E & H). injection H as <-. cbn [hp].
  unfold vec_ptr in Ep. apply ok_bind in Ep as (l & El & _). destruct (use_at _ _ _ _ _ _ _ _ _ E El) as (l' & E'). eapply nth_upd_some. exact E'.
Qed.

Lemma read_none {A} (h : bheap A) r : 0 < b_len r -> nth_error (hp h) (b_addr r) = Some None -> read h r = Panic.
Proof.
  intros Hl E. apply read_absent; [exact Hl|]. intros l El. unfold cells_at in El. rewrite E in El. discriminate.
Qed.

Lemma c87_drop {A} (h : bheap A) v i j r h1 h2 : fresh h -> vec_slice h v i j = Ok (r, h1) -> i < j ->
  vec_drop h1 v = Ok h2 -> read h2 r = Panic.
Proof.
  intros F H Hij Hd. destruct (slice_facts _ _ _ _ _ _ F H Hij) as (_ & _ & _ & Ea & Eb & _). apply read_none; [lia|].
  rewrite Ea. eapply drop_none. exact Hd.
Qed.

Lemma c87_grow {A} g (h : bheap A) v i j r h1 l n d v2 h2 : fresh h -> vec_slice h v i j = Ok (r, h1) -> i < j ->
  cells_at h1 (v_addr v) = Ok l -> length l < n -> g <> Within ->
  vec_grow g h1 v n d = Ok (v2, h2) -> read h2 r = Panic.
Proof.
  intros F H Hij El Hn Hg Hd. destruct (slice_facts _ _ _ _ _ _ F H Hij) as (Hv & _ & T & Ea & Eb & Et).
  unfold vec_grow in Hd. rewrite El in Hd. cbn [bind] in Hd. rewrite (proj2 (Nat.ltb_lt _ _) Hn) in Hd.
  destruct g; [congruence| |]; apply ok_bind in Hd as (h3 & E & Hd); injection Hd as <- <-.
  - apply read_absent; [lia|]. rewrite Ea. intros l' El'. apply cells_upd in El' as [[_ ->]|[Ne _]]; [|congruence].
    apply Forall_forall. intros e He. apply in_map_iff in He as (y & <- & _). cbn [snd]. constructor; [|constructor]. cbn [item_tag].
    apply vec_drop_fresh in E as [_ E]; [lia|]. eapply vec_slice_fresh; eauto.
  - apply read_none; [lia|]. rewrite Ea. apply drop_none in E. cbn [vec_new snd hp]. rewrite nth_error_app1; [exact E|].
    apply nth_error_Some. congruence.
Qed.

(** Two mutable references: the second one ends the first. *)
Lemma c87_exclusive {A} (h : bheap A) v w h1 w2 h2 k x : fresh h -> vec_mut h v = Ok (w, h1) -> 0 < b_len w ->
  vec_mut h1 v = Ok (w2, h2) -> write h2 w k x = Panic /\ read h2 w = Panic.
Proof.
  intros F H1 Hl H2.
  assert (Hv : v_tag v < hp_tag h /\ heap_ok (layered (hp_tag h)) h1 /\ hp_tag h1 = S (hp_tag h) /\ b_addr w = v_addr v /\ b_tag w = hp_tag h).
  { unfold vec_mut in H1. apply ok_bind in H1 as (p & Ep & H1). unfold vec_ptr in Ep. apply ok_bind in Ep as (l & El & Ep). injection Ep as <-.
    cbn [b_len] in H1. unfold reborrow_mut in H1. destruct (_ <=? _); [|discriminate]. cbn [b_tag b_addr b_start] in H1.
    apply ok_bind in H1 as (h3 & E & K). injection K as <- <-. cbn [b_len b_addr b_tag] in *. apply fresh_heap in F.
    destruct (use_heap (below (hp_tag h)) (layered (hp_tag h)) _ _ _ _ _ _ _ E F) as [L T].
    - intros s Hs. apply layered_below. exact Hs.
    - intros s s' Hs Es. apply write_access_in in Es as [Es _]. apply push_layered_mut; [lia|]. apply layered_below. eapply below_incl; eauto.
    - split; [|repeat split; [exact L|rewrite T; cbn; lia]].
      unfold use in E. destruct (length l =? 0) eqn:En; [apply Nat.eqb_eq in En; lia|].
      apply ok_bind in E as (l1 & E1 & E). apply ok_bind in E as (l' & E2 & _). apply cells_at_in in E1. specialize (F l1 E1).
      apply access_range_ok in E2 as (Hle & m' & Em & _). apply access_ok in Em. cbn [b_start Nat.add] in *. rewrite skipn_O in Em.
      assert (Hlen : length (firstn (length l) l1) = length l) by (rewrite firstn_length; lia).
      assert (H2' : stacks_ok (below (hp_tag h)) (firstn (length l) l1)) by apply (forall_parts _ (length l) 0 l1 F).
      destruct Em as [|e e' l3 l4 (_ & s & Es & _) _]; [cbn in Hlen; lia|]. apply Forall_inv in H2'.
      apply write_access_in in Es as (Hi1 & Hi2). apply Hi1 in Hi2. rewrite Forall_forall in H2'. exact (H2' _ Hi2). }
  destruct Hv as (Hv & L & T & Ea & Et).
  assert (Ha : absent (b_tag w) h2 (b_addr w)).
  { unfold vec_mut in H2. apply ok_bind in H2 as (p & Ep & Hm). unfold vec_ptr in Ep. apply ok_bind in Ep as (l & El & Ep). injection Ep as <-.
    cbn [b_len] in Hm. unfold reborrow_mut in Hm. destruct (_ <=? _); [|discriminate]. cbn [b_tag] in Hm.
    apply ok_bind in Hm as (h3 & E & Hm). injection Hm as _ <-. rewrite Ea, Et. intros l' El'.
    eapply use_all_write with (t0 := hp_tag h) in E; [|exact El|exact L|exact Hv|exact El'].
    eapply Forall_impl; [|exact E]. cbn beta. intros e (s' & -> & Hs). constructor; [cbn; lia|].
    eapply Forall_impl; [|exact Hs]. cbn beta. intros it Hi. lia. }
  split; [apply write_absent; exact Ha|apply read_absent; assumption].
Qed.

(** ** Programs *)

(** [h'] follows [h]: tags are fresh and none is given twice. *)
Definition step_ok {A} (h h' : bheap A) : Prop := fresh h' /\ hp_tag h <= hp_tag h'.

Lemma so_refl {A} (h : bheap A) : fresh h -> step_ok h h.
Proof. split; auto. Qed.

Lemma so_trans {A} (h1 h2 h3 : bheap A) : step_ok h1 h2 -> step_ok h2 h3 -> step_ok h1 h3.
Proof. unfold step_ok. intuition lia. Qed.

Lemma so_reborrow_mut {A} (h : bheap A) r i n r' h' : fresh h -> reborrow_mut h r i n = Ok (r', h') -> step_ok h h'.
Proof. intros F H. apply reborrow_mut_fresh in H as (? & ? & ?); [|exact F]. split; [assumption|lia]. Qed.

Lemma so_write {A} (h : bheap A) r i x h' : fresh h -> write h r i x = Ok h' -> step_ok h h'.
Proof. intros F H. apply write_fresh in H as (? & ?); [|exact F]. split; [assumption|lia]. Qed.

Lemma so_read {A} (h : bheap A) r l h' : fresh h -> read h r = Ok (l, h') -> step_ok h h'.
Proof. intros F H. apply read_fresh in H as (? & ?); [|exact F]. split; [assumption|lia]. Qed.

Lemma so_vec_mut {A} (h : bheap A) v r h' : fresh h -> vec_mut h v = Ok (r, h') -> step_ok h h'.
Proof. intros F H. apply vec_mut_fresh in H as (? & ? & ?); [|exact F]. split; [assumption|lia]. Qed.

Lemma so_vec_set {A} (h : bheap A) v i x h' : fresh h -> vec_set h v i x = Ok h' -> step_ok h h'.
Proof.
  intros F H. unfold vec_set in H. apply ok_bind in H as ([r h1] & E1 & H). apply ok_bind in H as ([r' h2] & E2 & H).
  apply so_vec_mut in E1; [|exact F]. apply so_reborrow_mut in E2; [|apply E1]. apply so_write in H; [|apply E2].
  eapply so_trans; [exact E1|]. eapply so_trans; eauto.
Qed.

Lemma so_vec_slice {A} (h : bheap A) v i j r h' : fresh h -> vec_slice h v i j = Ok (r, h') -> step_ok h h'.
Proof. intros F H. apply vec_slice_fresh in H as (? & ? & ?); [|exact F]. split; [assumption|lia]. Qed.

Lemma so_subslice {A} (h : bheap A) r i j r' h' : fresh h -> subslice h r i j = Ok (r', h') -> step_ok h h'.
Proof. intros F H. apply subslice_fresh in H as (? & ? & ?); [|exact F]. split; [assumption|lia]. Qed.

Lemma so_vec_drop {A} (h : bheap A) v h' : fresh h -> vec_drop h v = Ok h' -> step_ok h h'.
Proof. intros F H. apply vec_drop_fresh in H as (? & ?); [|exact F]. split; [assumption|lia]. Qed.

Lemma so_vec_new {A} (h : bheap A) l v h' : fresh h -> vec_new h l = (v, h') -> step_ok h h' /\ v_tag v < hp_tag h'.
Proof.
  intros F H. pose proof (vec_new_fresh h l F) as K. rewrite H in K. injection H as <- <-. cbn in *. split; [split; [exact K|cbn; lia]|lia].
Qed.

Lemma so_vec_clone {A} (h : bheap A) v v' h' : fresh h -> vec_clone h v = Ok (v', h') -> step_ok h h' /\ v_tag v' < hp_tag h'.
Proof.
  intros F H. unfold vec_clone in H. apply ok_bind in H as ([r1 h1] & E1 & H). apply ok_bind in H as ([l h2] & E2 & H).
  apply vec_ref_fresh in E1 as (F1 & T1 & _); [|exact F]. apply so_read in E2 as [F2 T2]; [|exact F1].
  assert (H' : vec_new h2 l = (v', h')) by congruence. apply so_vec_new in H' as [H1 H2]; [|exact F2]. split; [|exact H2]. eapply so_trans; [|exact H1]. split; [exact F2|lia].
Qed.

Lemma so_vec_grow {A} g (h : bheap A) v n d v' h' : fresh h -> v_tag v < hp_tag h -> vec_grow g h v n d = Ok (v', h') ->
  step_ok h h' /\ v_tag v' < hp_tag h'.
Proof.
  intros F Hv H. pose proof (vec_grow_fresh g h v n d _ F Hv H) as K. cbn [snd] in K.
  assert (T : hp_tag h <= hp_tag h' /\ v_tag v' < hp_tag h'); [|unfold step_ok; tauto].
  unfold vec_grow in H. apply ok_bind in H as (l & El & H). destruct (_ <? _); [|injection H as <- <-; lia]. destruct g.
  - injection H as <- <-. cbn. lia.
  - apply ok_bind in H as (h1 & E & H). injection H as <- <-. apply so_vec_drop in E as [_ E]; [|exact F]. cbn. lia.
  - apply ok_bind in H as (h1 & E & H). injection H as <- <-. apply so_vec_drop in E as [_ E]; [|exact F]. cbn. lia.
Qed.

Definition mem_ok (mem : bmemory) : Prop := fresh (bm_chars mem) /\ fresh (bm_patterns mem) /\ fresh (bm_conditions mem).

Definition mstep_ok (m m' : bmemory) : Prop :=
  step_ok (bm_chars m) (bm_chars m') /\ step_ok (bm_patterns m) (bm_patterns m') /\ step_ok (bm_conditions m) (bm_conditions m').

Lemma ms_ok m m' : mstep_ok m m' -> mem_ok m'.
Proof. unfold mstep_ok, mem_ok, step_ok. tauto. Qed.

Lemma ms_refl m : mem_ok m -> mstep_ok m m.
Proof. unfold mstep_ok, mem_ok, step_ok. intuition. Qed.

Lemma ms_trans m1 m2 m3 : mstep_ok m1 m2 -> mstep_ok m2 m3 -> mstep_ok m1 m3.
Proof. unfold mstep_ok. intros (?&?&?) (?&?&?). split; [eapply so_trans; eauto|]. split; eapply so_trans; eauto. Qed.

Lemma ms_chars m h : mem_ok m -> step_ok (bm_chars m) h -> mstep_ok m (set_chars m h).
Proof. intros (F1 & F2 & F3) K. repeat split; cbn; auto; apply K. Qed.

Lemma ms_patterns m h : mem_ok m -> step_ok (bm_patterns m) h -> mstep_ok m (set_patterns m h).
Proof. intros (F1 & F2 & F3) K. repeat split; cbn; auto; apply K. Qed.

Lemma ms_conditions m h : mem_ok m -> step_ok (bm_conditions m) h -> mstep_ok m (set_conditions m h).
Proof. intros (F1 & F2 & F3) K. repeat split; cbn; auto; apply K. Qed.

Lemma so_words_alloc : forall s h buf a h' a', fresh h -> words_alloc_b h buf a s = Ok (h', a') -> step_ok h h'.
Proof.
  induction s as [|c s IH]; intros h buf a h' a' F H; cbn [words_alloc_b] in H; [injection H as <- _; apply so_refl, F|].
  apply ok_bind in H as (h1 & E & H). apply so_write in E; [|exact F]. apply IH in H; [|apply E]. eapply so_trans; eauto.
Qed.

Lemma so_words_loop : forall fuel h buf a s w h' a' w', fresh h -> words_next_loop_b fuel h buf a s w = Ok (h', a', w') -> step_ok h h'.
Proof.
  induction fuel as [|fuel IH]; intros h buf a s w h' a' w' F H; cbn [words_next_loop_b] in H; [discriminate|].
  destruct (memchr SPACE s) as [[|o]|].
  - injection H as <- _ _. apply so_refl, F.
  - apply ok_bind in H as (prev & _ & H). destruct (_ =? _)%N.
    + apply ok_bind in H as (u & _ & H). apply ok_bind in H as ([h1 a1] & E1 & H). apply ok_bind in H as ([h2 a2] & E2 & H).
      apply ok_bind in H as (s' & _ & H). apply so_words_alloc in E1; [|exact F]. apply so_words_alloc in E2; [|apply E1].
      apply IH in H; [|apply E2]. eapply so_trans; [exact E1|]. eapply so_trans; eauto.
    + apply ok_bind in H as (u & _ & H). apply ok_bind in H as ([h1 a1] & E1 & H). injection H as <- _ _. eapply so_words_alloc; eauto.
  - apply ok_bind in H as ([h1 a1] & E1 & H). injection H as <- _ _. eapply so_words_alloc; eauto.
Qed.

Lemma so_words_next h w o h' w' : fresh h -> words_next_b h w = Ok (o, h', w') -> step_ok h h'.
Proof.
  intros F H. unfold words_next_b in H. destruct (wb_s w) eqn:Es; [injection H as _ <- _; apply so_refl, F|]. rewrite <- Es in H.
  apply ok_bind in H as ([[h1 a1] e1] & E1 & H). apply ok_bind in H as (rest & _ & H). apply ok_bind in H as (s & _ & H).
  apply ok_bind in H as ([r h2] & E2 & H). injection H as _ <- _. apply so_words_loop in E1; [|exact F].
  apply so_subslice in E2; [|apply E1]. eapply so_trans; eauto.
Qed.

Section Programs.
Context {UC : unicode}.

Lemma so_mk_pattern h r mt inv p h' : fresh h -> mk_pattern_b h r mt inv = Ok (p, h') -> step_ok h h'.
Proof. intros F H. unfold mk_pattern_b in H. apply ok_bind in H as ([t h1] & E & H). injection H as _ <-. eapply so_read; eauto. Qed.

Lemma so_pattern_parse h r p h' : fresh h -> pattern_parse_b h r = Ok (p, h') -> step_ok h h'.
Proof.
  intros F H. unfold pattern_parse_b in H. apply ok_bind in H as (u & _ & H). apply ok_bind in H as ([t h1] & E1 & H).
  apply ok_bind in H as ([[[b mt] r1] h2] & E2 & H). apply ok_bind in H as ([t2 h3] & E3 & H). apply ok_bind in H as ([[mt2 r2] h4] & E4 & H).
  apply ok_bind in H as ([t3 h5] & E5 & H). apply ok_bind in H as ([[mt3 r3] h6] & E6 & H).
  apply so_read in E1; [|exact F].
  assert (K2 : step_ok h1 h2).
  { destruct (starts_with t 33); [|injection E2 as _ _ _ <-; apply so_refl, E1].
    apply ok_bind in E2 as ([r' h'1] & E2 & K). injection K as _ _ _ <-. eapply so_subslice; [apply E1|exact E2]. }
  apply so_read in E3; [|apply K2].
  assert (K4 : step_ok h3 h4).
  { destruct (_ && _); [|injection E4 as _ _ <-; apply so_refl, E3]. apply ok_bind in E4 as (n & _ & E4).
    apply ok_bind in E4 as ([r' h'1] & E4 & K). injection K as _ _ <-. eapply so_subslice; [apply E3|exact E4]. }
  apply so_read in E5; [|apply K4].
  assert (K6 : step_ok h5 h6).
  { destruct (starts_with t3 39); [|destruct (starts_with t3 94); [|injection E6 as _ _ <-; apply so_refl, E5]];
    apply ok_bind in E6 as ([r' h'1] & E6 & K); injection K as _ _ <-; (eapply so_subslice; [apply E5|exact E6]). }
  assert (K : step_ok h h6) by (do 5 (eapply so_trans; [eassumption|]); exact K6).
  destruct (b_len r3 =? 0); [injection H as _ <-; exact K|]. apply ok_bind in H as ([p' h7] & E7 & H). injection H as _ <-.
  apply so_mk_pattern in E7; [|apply K]. eapply so_trans; eauto.
Qed.

Lemma ms_patterns_alloc m p pat m' p' : mem_ok m -> patterns_alloc_b m p pat = Ok (m', p') -> mstep_ok m m'.
Proof.
  intros F H. unfold patterns_alloc_b in H. apply ok_bind in H as (h & E & H). injection H as <- _. apply ms_patterns; [exact F|].
  eapply so_write; [apply F|exact E].
Qed.

Lemma ms_patterns_loop : forall fuel m p b m' p', mem_ok m -> patterns_next_loop_b fuel m p b = Ok (m', p') -> mstep_ok m m'.
Proof.
  induction fuel as [|fuel IH]; intros m p b m' p' F H; cbn [patterns_next_loop_b] in H; [discriminate|].
  apply ok_bind in H as ([[word h] w] & E & H). apply so_words_next in E; [|apply F].
  destruct word as [word|]; [|injection H as <- _; apply ms_chars; [exact F|exact E]].
  apply ok_bind in H as ([t h1] & E1 & H). apply so_read in E1; [|apply E]. pose proof (so_trans _ _ _ E E1) as E2.
  destruct (negb (is_or_separator t)).
  - apply ok_bind in H as ([parsed h2] & E3 & H). apply so_pattern_parse in E3; [|apply E1].
    pose proof (ms_chars m h2 F (so_trans _ _ _ E2 E3)) as M. destruct parsed as [pat|]; [destruct b|].
    + injection H as <- _. exact M.
    + apply ok_bind in H as ([m1 p1] & E4 & H). apply ms_patterns_alloc in E4; [|eapply ms_ok, M]. apply IH in H; [|eapply ms_ok, E4].
      eapply ms_trans; [exact M|]. eapply ms_trans; eauto.
    + apply IH in H; [|eapply ms_ok, M]. eapply ms_trans; eauto.
  - pose proof (ms_chars m h1 F E2) as M. apply IH in H; [|eapply ms_ok, M]. eapply ms_trans; eauto.
Qed.

Lemma ms_patterns_next m p o m' p' : mem_ok m -> patterns_next_b m p = Ok (o, m', p') -> mstep_ok m m'.
Proof.
  intros F H. unfold patterns_next_b in H. apply ok_bind in H as ([[m1 p1] b] & E & H).
  assert (M1 : mstep_ok m m1).
  { destruct (ptb_next p); [|injection E as <- _ _; apply ms_refl, F]. apply ok_bind in E as ([m2 p2] & E & K). injection K as <- _ _.
    eapply ms_patterns_alloc; eauto. }
  apply ok_bind in H as ([m2 p2] & E2 & H). apply ms_patterns_loop in E2; [|eapply ms_ok, M1]. pose proof (ms_trans _ _ _ M1 E2) as M2.
  destruct (_ =? _); [injection H as _ <- _; exact M2|]. apply ok_bind in H as ([r h] & E3 & H). injection H as _ <- _.
  pose proof (ms_ok _ _ M2) as F2. apply so_subslice in E3; [|apply F2]. eapply ms_trans; [exact M2|]. apply ms_patterns; assumption.
Qed.

Lemma ms_parse_loop : forall fuel m p v n m' n', mem_ok m -> parse_loop_b fuel m p v n = Ok (m', n') -> mstep_ok m m'.
Proof.
  induction fuel as [|fuel IH]; intros m p v n m' n' F H; cbn [parse_loop_b] in H; [discriminate|].
  apply ok_bind in H as ([[c m1] p1] & E & H). apply ms_patterns_next in E; [|exact F]. pose proof (ms_ok _ _ E) as F1.
  destruct c as [c|]; [|injection H as <- _; exact E]. apply ok_bind in H as (h & E2 & H). apply so_vec_set in E2; [|apply F1].
  pose proof (ms_conditions m1 h F1 E2) as M. apply IH in H; [|eapply ms_ok, M]. eapply ms_trans; [exact E|]. eapply ms_trans; eauto.
Qed.

Lemma ms_new_extended m r q m' : mem_ok m -> new_extended_b m r = Ok (q, m') -> mstep_ok m m'.
Proof.
  intros F H. unfold new_extended_b in H. apply ok_bind in H as ([cs h] & E & H). apply so_read in E; [|apply F].
  pose proof (ms_conditions m h F E) as M. destruct cs as [|c [|c2 cs]]; [injection H as _ <-; exact M| |injection H as _ <-; exact M].
  apply ok_bind in H as ([ps h1] & E1 & H). apply so_read in E1; [|apply (ms_ok _ _ M)].
  pose proof (ms_trans _ _ _ M (ms_patterns _ h1 (ms_ok _ _ M) E1)) as M1.
  destruct ps as [|f [|f2 rest]]; [discriminate| |injection H as _ <-; exact M1].
  destruct (pb_match_type f); injection H as _ <-; exact M1.
Qed.

Definition parser_ok (m : bmemory) (p : parser_b) : Prop :=
  v_tag (pb_chars p) < hp_tag (bm_chars m) /\ v_tag (pb_patterns p) < hp_tag (bm_patterns m) /\ v_tag (pb_conditions p) < hp_tag (bm_conditions m).

Lemma parser_ok_step m m' p : parser_ok m p -> mstep_ok m m' -> parser_ok m' p.
Proof. unfold parser_ok, mstep_ok, step_ok. intuition lia. Qed.

Lemma ms_parse g1 g2 g3 m p s q p' m' : mem_ok m -> parser_ok m p -> parse_b g1 g2 g3 m p s = Ok (q, p', m') -> mstep_ok m m' /\ parser_ok m' p'.
Proof.
  intros (F1 & F2 & F3) (P1 & P2 & P3) H. unfold parse_b in H.
  apply ok_bind in H as ([vc hc] & E1 & H). apply ok_bind in H as ([vd hd] & E2 & H). apply ok_bind in H as ([vp hp0] & E3 & H).
  apply so_vec_grow in E1 as [E1 T1]; [|assumption..]. apply so_vec_grow in E2 as [E2 T2]; [|assumption..]. apply so_vec_grow in E3 as [E3 T3]; [|assumption..].
  apply ok_bind in H as ([pats hp1] & E4 & H). apply ok_bind in H as ([chars hc1] & E5 & H). apply ok_bind in H as (p1 & _ & H).
  apply ok_bind in H as ([m1 n1] & E6 & H). apply ok_bind in H as ([cs hd1] & E7 & H). apply ok_bind in H as ([q1 m2] & E8 & H). injection H as _ <- <-.
  apply so_vec_mut in E4; [|apply E3]. apply so_vec_mut in E5; [|apply E1].
  assert (M0 : mstep_ok (MkBMem hc hp0 hd) (MkBMem hc1 hp1 hd)) by (split; [exact E5|split; [exact E4|apply so_refl, E2]]).
  apply ms_parse_loop in E6; [|exact (ms_ok _ _ M0)]. pose proof (ms_ok _ _ E6) as F6. apply so_vec_slice in E7; [|apply F6].
  pose proof (ms_conditions _ _ F6 E7) as M7. apply ms_new_extended in E8; [|exact (ms_ok _ _ M7)].
  pose proof (ms_trans _ _ _ M0 (ms_trans _ _ _ E6 (ms_trans _ _ _ M7 E8))) as M. split.
  - eapply ms_trans; [|exact M]. split; [exact E1|split; [exact E3|exact E2]].
  - eapply parser_ok_step; [|exact M]. split; [exact T1|split; [exact T3|exact T2]].
Qed.

Lemma so_fill : forall s h v n h' n', fresh h -> fill_chars_b h v n s = Ok (h', n') -> step_ok h h'.
Proof.
  induction s as [|c s IH]; intros h v n h' n' F H; cbn [fill_chars_b] in H; [injection H as <- _; apply so_refl, F|].
  apply ok_bind in H as (h1 & E & H). apply so_vec_set in E; [|exact F]. apply IH in H; [|apply E]. eapply so_trans; eauto.
Qed.

Lemma so_fill_left : forall s h v n, fresh h -> step_ok h (fill_chars_left_b h v n s).
Proof.
  induction s as [|c s IH]; intros h v n F; cbn [fill_chars_left_b]; [apply so_refl, F|].
  assert (K : step_ok h (match vec_mut h v with Ok (_, h1) => h1 | _ => h end)).
  { destruct (vec_mut h v) as [[r h1]| |] eqn:E; [eapply so_vec_mut; eauto|apply so_refl, F..]. }
  destruct (vec_set h v n c) as [h1| |] eqn:E; [|exact K..]. apply so_vec_set in E; [|exact F]. eapply so_trans; [exact E|]. apply IH, E.
Qed.

Lemma ms_parse_not_extended m p s q m' : mem_ok m -> parse_not_extended_b m p s = Ok (q, m') -> mstep_ok m m'.
Proof.
  intros F H. unfold parse_not_extended_b in H. apply ok_bind in H as ([h n] & E1 & H). apply ok_bind in H as ([r h1] & E2 & H).
  apply ok_bind in H as ([q1 h2] & E3 & H). injection H as _ <-. apply ms_chars; [exact F|].
  apply so_fill in E1; [|apply F]. apply so_vec_slice in E2; [|apply E1]. unfold new_not_extended_b in E3. apply ok_bind in E3 as ([p1 h3] & E3 & K). injection K as _ <-.
  apply so_mk_pattern in E3; [|apply E2]. eapply so_trans; [exact E1|]. eapply so_trans; eauto.
Qed.

Lemma ms_read_pattern m p q m' : mem_ok m -> read_pattern_b m p = Ok (q, m') -> mstep_ok m m'.
Proof.
  intros F H. unfold read_pattern_b in H. apply ok_bind in H as ([t h] & E & H). injection H as _ <-. apply ms_chars; [exact F|]. eapply so_read; [apply F|exact E].
Qed.

Lemma ms_read_all {X Y} (f : bmemory -> X -> res (Y * bmemory)) : (forall m x y m', mem_ok m -> f m x = Ok (y, m') -> mstep_ok m m') ->
  forall l m ys m', mem_ok m -> read_all_b f m l = Ok (ys, m') -> mstep_ok m m'.
Proof.
  intros Hf. induction l as [|x l IH]; intros m ys m' F H; cbn [read_all_b] in H; [injection H as _ <-; apply ms_refl, F|].
  apply ok_bind in H as ([y m1] & E1 & H). apply ok_bind in H as ([ys1 m2] & E2 & H). injection H as _ <-.
  apply Hf in E1; [|exact F]. apply IH in E2; [|exact (ms_ok _ _ E1)]. eapply ms_trans; eauto.
Qed.

Lemma ms_read_condition m c ps m' : mem_ok m -> read_condition_b m c = Ok (ps, m') -> mstep_ok m m'.
Proof.
  intros F H. unfold read_condition_b in H. apply ok_bind in H as ([t h] & E & H). apply so_read in E; [|apply F].
  pose proof (ms_patterns m h F E) as M. eapply ms_read_all in H; [|intros; eapply ms_read_pattern; eauto|exact (ms_ok _ _ M)]. eapply ms_trans; eauto.
Qed.

Lemma ms_read_query m q q' m' : mem_ok m -> read_query_b m q = Ok (q', m') -> mstep_ok m m'.
Proof.
  intros F H. destruct q as [r|p]; cbn [read_query_b] in H.
  - apply ok_bind in H as ([t h] & E & H). apply ok_bind in H as ([cs m1] & E1 & H). injection H as _ <-. apply so_read in E; [|apply F].
    pose proof (ms_conditions m h F E) as M. eapply ms_read_all in E1; [|intros; eapply ms_read_condition; eauto|exact (ms_ok _ _ M)]. eapply ms_trans; eauto.
  - apply ok_bind in H as ([p1 m1] & E1 & H). injection H as _ <-. eapply ms_read_pattern; eauto.
Qed.

Definition parsers_ok (m : bmemory) (ps : list (option parser_b)) : Prop := forall p, In (Some p) ps -> parser_ok m p.

Lemma parsers_ok_step m m' ps : parsers_ok m ps -> mstep_ok m m' -> parsers_ok m' ps.
Proof. intros H M p Hp. eapply parser_ok_step; eauto. Qed.

Lemma bstep_ok w w' : bstep w w' -> mem_ok (bw_mem w) -> parsers_ok (bw_mem w) (bw_parsers w) ->
  mstep_ok (bw_mem w) (bw_mem w') /\ parsers_ok (bw_mem w') (bw_parsers w').
Proof.
  intros St F P. destruct St as [mem ps ls p mem' E|mem ps ls i p p' mem' En E|mem ps ls i p mem' En E|mem ps ls i p g1 g2 g3 s q p' mem' En E|mem ps ls i p s q mem' En E|mem ps ls i p s En E|mem ps ls b q mem' Hb E];
    cbn [bw_mem bw_parsers] in *.
  - assert (K : mstep_ok mem mem' /\ parser_ok mem' p).
    { unfold parser_new_b in E. destruct (vec_new (bm_chars mem) (repeat 0%N 64)) as [cs hc] eqn:E1.
      destruct (vec_new (bm_patterns mem) (repeat default_pattern_b 64)) as [pp hp0] eqn:E2.
      destruct (vec_new (bm_conditions mem) (repeat empty_bref 64)) as [ds hd] eqn:E3. injection E as <- <-.
      apply so_vec_new in E1 as [? ?]; [|apply F]. apply so_vec_new in E2 as [? ?]; [|apply F]. apply so_vec_new in E3 as [? ?]; [|apply F].
      split; [split; [assumption|split; assumption]|split; [assumption|split; assumption]]. }
    destruct K as [K1 K2]. split; [exact K1|]. intros p0 Hp. apply in_app_or in Hp as [Hp|[Hp|[]]]; [eapply parsers_ok_step; eauto|].
    injection Hp as <-. exact K2.
  - assert (K : mstep_ok mem mem' /\ parser_ok mem' p').
    { unfold parser_clone_b in E. apply ok_bind in E as ([cs hc] & E1 & E). apply ok_bind in E as ([pp hp0] & E2 & E). apply ok_bind in E as ([ds hd] & E3 & E). injection E as <- <-.
      apply so_vec_clone in E1 as [? ?]; [|apply F]. apply so_vec_clone in E2 as [? ?]; [|apply F]. apply so_vec_clone in E3 as [? ?]; [|apply F].
      split; [split; [assumption|split; assumption]|split; [assumption|split; assumption]]. }
    destruct K as [K1 K2]. split; [exact K1|]. intros p0 Hp. apply in_app_or in Hp as [Hp|[Hp|[]]]; [eapply parsers_ok_step; eauto|].
    injection Hp as <-. exact K2.
  - assert (K : mstep_ok mem mem').
    { unfold parser_drop_b in E. apply ok_bind in E as (hc & E1 & E). apply ok_bind in E as (hp0 & E2 & E). apply ok_bind in E as (hd & E3 & E). injection E as <-.
      apply so_vec_drop in E1; [|apply F]. apply so_vec_drop in E2; [|apply F]. apply so_vec_drop in E3; [|apply F]. split; [assumption|split; assumption]. }
    split; [exact K|]. intros p0 Hp. apply in_upd in Hp as [Hp|Hp]; [discriminate|]. eapply parsers_ok_step; eauto.
  - apply ms_parse in E as [K1 K2]; [|exact F|apply P; eapply nth_error_In; exact En].
    split; [exact K1|]. intros p0 Hp. apply in_upd in Hp as [Hp|Hp]; [injection Hp as ->; exact K2|]. eapply parsers_ok_step; eauto.
  - apply ms_parse_not_extended in E; [|exact F]. split; [exact E|]. eapply parsers_ok_step; eauto.
  - assert (K : mstep_ok mem (parse_not_extended_caught_b mem p s)) by (apply ms_chars; [exact F|apply so_fill_left, F]).
    split; [exact K|]. eapply parsers_ok_step; eauto.
  - apply ms_read_query in E; [|exact F]. split; [exact E|]. eapply parsers_ok_step; eauto.
Qed.

(** ** Metrics *)

Definition metric_ok (m : bmemory) (mb : metric_b) : Prop := v_tag (mb_slab mb) < hp_tag (bm_chars m).

Lemma metric_ok_step m m' mb : metric_ok m mb -> mstep_ok m m' -> metric_ok m' mb.
Proof. unfold metric_ok, mstep_ok, step_ok. intuition lia. Qed.

Lemma so_store v : forall old new i h h', fresh h -> store_changes h v i old new = Ok h' -> step_ok h h'.
Proof.
  induction old as [|x old IH]; intros new i h h' F H; cbn [store_changes] in H; [injection H as <-; apply so_refl, F|].
  destruct new as [|y new]; [injection H as <-; apply so_refl, F|]. apply ok_bind in H as (h1 & E & H).
  assert (K : step_ok h h1) by (destruct (_ =? _)%N; [injection E as <-; apply so_refl, F|eapply so_vec_set; eauto]).
  apply IH in H; [|apply K]. eapply so_trans; eauto.
Qed.

Lemma ms_call f m mb p c r sc mb' m' r' : mem_ok m -> metric_ok m mb -> call_b f m mb p c r = Ok (sc, mb', m', r') -> mstep_ok m m' /\ metric_ok m' mb'.
Proof.
  intros F Hm H. unfold call_b in H. apply ok_bind in H as ([p1 m1] & E1 & H). apply ok_bind in H as ([c1 m2] & E2 & H).
  apply ok_bind in H as (l & El & H). apply ok_bind in H as ([[sc1 mm] r1] & _ & H). apply ok_bind in H as (h & E3 & H). injection H as _ <- <- _.
  apply ms_read_pattern in E1; [|exact F].
  assert (K : mstep_ok m1 m2).
  { destruct c as [bs|rr]; cbn [read_candidate_b] in E2; [injection E2 as _ <-; apply ms_refl, (ms_ok _ _ E1)|].
    apply ok_bind in E2 as ([l1 h1] & E2 & K). injection K as _ <-. apply ms_chars; [exact (ms_ok _ _ E1)|]. eapply so_read; [apply (ms_ok _ _ E1)|exact E2]. }
  pose proof (ms_trans _ _ _ E1 K) as K2. apply so_store in E3; [|apply (ms_ok _ _ K2)].
  pose proof (ms_trans _ _ _ K2 (ms_chars _ _ (ms_ok _ _ K2) E3)) as M. split; [exact M|]. apply (metric_ok_step _ _ _ Hm M).
Qed.

Lemma ms_condition R c : forall ps m mb r sc mb' m' r', mem_ok m -> metric_ok m mb -> score_condition_b R m mb ps c r = Ok (sc, mb', m', r') ->
  mstep_ok m m' /\ metric_ok m' mb'.
Proof.
  induction ps as [|p ps IH]; intros m mb r sc mb' m' r' F Hm H; cbn [score_condition_b] in H; [injection H as _ <- <- _; split; [apply ms_refl, F|exact Hm]|].
  apply ok_bind in H as ([[[sc1 mb1] m1] r1] & E & H). apply ms_call in E as [M1 P1]; [|exact F|exact Hm].
  destruct sc1 as [x|]; [injection H as _ <- <- _; auto|]. apply IH in H as [M2 P2]; [|exact (ms_ok _ _ M1)|exact P1].
  split; [eapply ms_trans; eauto|exact P2].
Qed.

Lemma ms_scores R c : forall conds m mb t r sc mb' m' r', mem_ok m -> metric_ok m mb -> score_conditions_b R m mb conds c t r = Ok (sc, mb', m', r') ->
  mstep_ok m m' /\ metric_ok m' mb'.
Proof.
  induction conds as [|p ps IH]; intros m mb t r sc mb' m' r' F Hm H; cbn [score_conditions_b] in H; [injection H as _ <- <- _; split; [apply ms_refl, F|exact Hm]|].
  apply ok_bind in H as ([pp h] & E0 & H). apply so_read in E0; [|apply F]. pose proof (ms_patterns m h F E0) as M0.
  apply ok_bind in H as ([[[sc1 mb1] m1] r1] & E & H). apply ms_condition in E as [M1 P1]; [|exact (ms_ok _ _ M0)|exact (metric_ok_step _ _ _ Hm M0)].
  pose proof (ms_trans _ _ _ M0 M1) as M. destruct sc1 as [x|]; [|injection H as _ <- <- _; auto]. apply IH in H as [M2 P2]; [|exact (ms_ok _ _ M1)|exact P1].
  split; [eapply ms_trans; eauto|exact P2].
Qed.

Lemma ms_alloc g m mb text r mb' m' : mem_ok m -> metric_ok m mb -> alloc_chars_b g m mb text = Ok (r, mb', m') -> mstep_ok m m' /\ metric_ok m' mb'.
Proof.
  intros F Hm H. unfold alloc_chars_b in H. apply ok_bind in H as ([v h] & E1 & H). apply ok_bind in H as ([h1 n] & E2 & H).
  apply ok_bind in H as ([r1 h2] & E3 & H). injection H as _ <- <-. apply so_vec_grow in E1 as [E1 T1]; [|apply F|exact Hm].
  apply so_fill in E2; [|apply E1]. apply so_vec_slice in E3; [|apply E2].
  split; [apply ms_chars; [exact F|]; eapply so_trans; [exact E1|]; eapply so_trans; eauto|].
  unfold metric_ok. cbn. destruct E2 as [_ E2], E3 as [_ E3]. lia.
Qed.

Lemma ms_distance g R m mb q cand buf d mb' m' buf' : mem_ok m -> metric_ok m mb -> distance_b g R m mb q cand buf = Ok (d, mb', m', buf') ->
  mstep_ok m m' /\ metric_ok m' mb'.
Proof.
  intros F Hm H. unfold distance_b in H. destruct (q_is_empty_b q); [injection H as _ <- <- _; split; [apply ms_refl, F|exact Hm]|].
  apply ok_bind in H as ([[c mb1] m1] & E1 & H). apply ok_bind in H as ([[[sc mb2] m2] r2] & E2 & H). injection H as _ <- <- _.
  assert (K1 : mstep_ok m m1 /\ metric_ok m1 mb1).
  { destruct (str_is_ascii cand); [injection E1 as _ <- <-; split; [apply ms_refl, F|exact Hm]|].
    apply ok_bind in E1 as ([[r mb3] m3] & E1 & K). injection K as _ <- <-. eapply ms_alloc; eauto. }
  destruct K1 as [M1 P1]. pose proof (ms_ok _ _ M1) as F1. destruct q as [r|p].
  - apply ok_bind in E2 as ([conds h] & E3 & E2). apply so_read in E3; [|apply F1]. pose proof (ms_conditions m1 h F1 E3) as M3.
    apply ms_scores in E2 as [M2 P2]; [|exact (ms_ok _ _ M3)|exact (metric_ok_step _ _ _ P1 M3)]. split; [|exact P2].
    eapply ms_trans; [exact M1|]. eapply ms_trans; eauto.
  - apply ms_call in E2 as [M2 P2]; [|exact F1|exact P1]. split; [|exact P2]. eapply ms_trans; eauto.
Qed.

Definition program_ok (g : bprogram) : Prop :=
  mem_ok (bw_mem (bp_world g)) /\ parsers_ok (bw_mem (bp_world g)) (bw_parsers (bp_world g))
  /\ forall k, In (Some k) (bp_metrics g) -> metric_ok (bw_mem (bp_world g)) (bo_metric k).

Lemma program_step (w : bworld) ms mem' ms' : program_ok (MkBProgram w ms) -> mstep_ok (bw_mem w) mem' ->
  (forall k, In (Some k) ms' -> In (Some k) ms \/ metric_ok mem' (bo_metric k)) -> program_ok (MkBProgram (with_bmem w mem') ms').
Proof.
  intros (F & P & Q) M H. split; [exact (ms_ok _ _ M)|]. cbn in *. split; [eapply parsers_ok_step; eauto|].
  intros k Hk. destruct (H k Hk) as [K|K]; [|exact K]. eapply metric_ok_step; eauto.
Qed.

Lemma reached_fresh g : bprogram_reached g -> program_ok g.
Proof.
  induction 1 as [|g g' _ IH St].
  - split; [repeat split; intros ? ? ? ? []|]. split; intros ? [].
  - destruct St as [w w' ms St|w ms a mb mem E|w ms i a o mb mb' mem En E|w ms i a o mb mem En E|w ms i a o mb x En|w ms i a o mb g b cand d mb' mem En Hb E|w ms i a o mb g b cand buf d mb' mem buf' En Hb E].
    + destruct IH as (F & P & Q). cbn in *. apply bstep_ok in St as [M P']; [|exact F|exact P]. split; [exact (ms_ok _ _ M)|].
      split; [exact P'|]. cbn. intros k Hk. eapply metric_ok_step; eauto.
    + unfold metric_new_b in E. destruct (vec_new (bm_chars (bw_mem w)) (slab_of (metric_new a))) as [v h] eqn:E1. injection E as <- <-.
      pose proof IH as (F & _). apply so_vec_new in E1 as [E1 T]; [|apply F]. apply program_step with (ms := ms); [exact IH|apply ms_chars; [exact F|exact E1]|].
      intros k Hk. apply in_app_or in Hk as [Hk|[Hk|[]]]; [left; exact Hk|right]. injection Hk as <-. exact T.
    + unfold metric_clone_b in E. apply ok_bind in E as ([v h] & E1 & E). injection E as <- <-.
      pose proof IH as (F & _). apply so_vec_clone in E1 as [E1 T]; [|apply F]. apply program_step with (ms := ms); [exact IH|apply ms_chars; [exact F|exact E1]|].
      intros k Hk. apply in_app_or in Hk as [Hk|[Hk|[]]]; [left; exact Hk|right]. injection Hk as <-. exact T.
    + unfold metric_drop_b in E. apply ok_bind in E as (h & E1 & E). injection E as <-.
      pose proof IH as (F & _). apply so_vec_drop in E1; [|apply F]. apply program_step with (ms := ms); [exact IH|apply ms_chars; [exact F|exact E1]|].
      intros k Hk. apply in_upd in Hk as [Hk|Hk]; [discriminate|left; exact Hk].
    + destruct IH as (F & P & Q). split; [exact F|]. split; [exact P|]. cbn in *. intros k Hk. apply in_upd in Hk as [Hk|Hk]; [|auto].
      injection Hk as ->. cbn. exact (Q _ (nth_error_In _ _ En)).
    + unfold metric_distance_b in E. apply ok_bind in E as ([[[d1 mb1] m1] r1] & E & K). injection K as _ <- <-.
      pose proof IH as (F & P & Q). apply ms_distance in E as [M T]; [|exact F|exact (Q _ (nth_error_In _ _ En))].
      apply program_step with (ms := ms); [exact IH|exact M|]. intros k Hk. apply in_upd in Hk as [Hk|Hk]; [right; injection Hk as ->; exact T|left; exact Hk].
    + unfold metric_distance_and_ranges_b in E.
      pose proof IH as (F & P & Q). apply ms_distance in E as [M T]; [|exact F|exact (Q _ (nth_error_In _ _ En))].
      apply program_step with (ms := ms); [exact IH|exact M|]. intros k Hk. apply in_upd in Hk as [Hk|Hk]; [right; injection Hk as ->; exact T|left; exact Hk].
Qed.

Lemma c87_fresh : forall g, bprogram_reached g ->
  fresh (bm_chars (bw_mem (bp_world g))) /\ fresh (bm_patterns (bw_mem (bp_world g))) /\ fresh (bm_conditions (bw_mem (bp_world g))).
Proof. intros g R. apply (reached_fresh g R). Qed.

End Programs.

Lemma c87_forbidden : forall A (h : bheap A) v i j r h1, fresh h -> vec_slice h v i j = Ok (r, h1) -> i < j ->
  (forall w h2, vec_mut h1 v = Ok (w, h2) -> read h2 r = Panic)
  /\ (forall k x h2, vec_set h1 v k x = Ok h2 -> read h2 r = Panic)
  /\ (forall h2, vec_drop h1 v = Ok h2 -> read h2 r = Panic)
  /\ (forall g l n d v2 h2, cells_at h1 (v_addr v) = Ok l -> length l < n -> g <> Within ->
        vec_grow g h1 v n d = Ok (v2, h2) -> read h2 r = Panic).
Proof.
  intros A h v i j r h1 F H Hij. split; [|split; [|split]]; intros.
  - eapply c87_borrowed; eauto.
  - eapply c87_set; eauto.
  - eapply c87_drop; eauto.
  - eapply c87_grow; [exact F|exact H|exact Hij|eassumption..].
Qed.
