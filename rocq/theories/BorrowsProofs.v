(** The operations of Borrows.v succeed where the rules of aliasing allow them. *)
From Verif Require Import Prelude Chars Utils Candidate Query Parser Borrows Spec PreludeProofs ParserProofs.
Local Open Scope nat_scope.

(** ** Stacks *)

(** Tag [t] may read, and nothing above it may write *)
Fixpoint rd (t : nat) (s : stack) : Prop :=
  match s with
  | Shr t' :: s' => t = t' \/ rd t s'
  | _ => False
  end.

(** Tag [t] may write, and nothing above it may *)
Fixpoint own (t : nat) (s : stack) : Prop :=
  match s with
  | [] => False
  | Uniq t' :: _ => t = t'
  | Shr _ :: s' => own t s'
  end.

(** Tag [t] may write *)
Definition has (t : nat) (s : stack) : Prop := In (Uniq t) s.

Lemma rd_read t s : rd t s -> read_access t s = Ok s.
Proof.
  induction s as [|[u|u] s IH]; cbn [rd read_access]; try contradiction.
  intros H. destruct (Nat.eqb_spec t u) as [E|E]; [reflexivity|]. destruct H as [H|H]; [congruence|]. rewrite (IH H). reflexivity.
Qed.

Lemma own_read t s : own t s -> read_access t s = Ok s.
Proof.
  induction s as [|[u|u] s IH]; cbn [own read_access]; try contradiction; intros H.
  - subst u. rewrite Nat.eqb_refl. reflexivity.
  - destruct (Nat.eqb_spec t u) as [E|E]; [reflexivity|]. rewrite (IH H). reflexivity.
Qed.

Lemma has_read t s : has t s -> exists s', read_access t s = Ok s' /\ has t s' /\ (forall u, rd u s -> rd u s').
Proof.
  unfold has. induction s as [|[u|u] s IH]; cbn [In read_access]; [contradiction| |]; intros H.
  - destruct (Nat.eqb_spec t u) as [E|E].
    + exists (Uniq u :: s). subst u. cbn [In rd]. auto.
    + destruct H as [H|H]; [congruence|]. destruct (IH H) as (s' & E1 & E2 & _). exists s'. split; [exact E1|]. split; [exact E2|].
      cbn [rd]. contradiction.
  - destruct (Nat.eqb_spec t u) as [E|E].
    + exists (Shr u :: s). auto.
    + destruct H as [H|H]; [congruence|]. destruct (IH H) as (s' & E1 & E2 & E3). rewrite E1. cbn [bind]. exists (Shr u :: s').
      split; [reflexivity|]. split; [right; exact E2|]. intros v. cbn [rd]. intros [K|K]; auto.
Qed.

(** A write leaves the item on top, and what was below it. *)
Lemma own_write t s : own t s -> exists s', write_access t s = Ok s' /\ own t s' /\ (forall b, has b s -> has b s').
Proof.
  unfold has. induction s as [|[u|u] s IH]; cbn [own write_access]; try contradiction; intros H.
  - subst u. rewrite Nat.eqb_refl. exists (Uniq t :: s). cbn [own]. auto.
  - destruct (IH H) as (s' & E1 & E2 & E3). exists s'. split; [exact E1|]. split; [exact E2|]. intros b [K|K]; [discriminate|auto].
Qed.

Lemma has_write t s : has t s -> exists s', write_access t s = Ok s' /\ own t s' /\ has t s'.
Proof.
  unfold has. induction s as [|[u|u] s IH]; cbn [In write_access]; [contradiction| |]; intros H.
  - destruct (Nat.eqb_spec t u) as [E|E].
    + exists (Uniq u :: s). subst u. cbn [In own]. auto.
    + destruct H as [H|H]; [congruence|]. exact (IH H).
  - destruct H as [H|H]; [congruence|]. exact (IH H).
Qed.

(** ** Buffers *)

(** All stacks satisfy [P] *)
Definition each {A} (P : stack -> Prop) (l : cells A) : Prop := Forall (fun c => P (snd c)) l.

(** The same values, and stacks related by [R] *)
Definition chg {A} (R : stack -> stack -> Prop) (l l' : cells A) : Prop :=
  Forall2 (fun c c' => fst c' = fst c /\ R (snd c) (snd c')) l l'.

(** No tag has lost its right to read *)
Definition ext (s s' : stack) : Prop := forall t, rd t s -> rd t s'.

Lemma ext_refl s : ext s s.
Proof. unfold ext. auto. Qed.

Lemma ext_trans s1 s2 s3 : ext s1 s2 -> ext s2 s3 -> ext s1 s3.
Proof. unfold ext. auto. Qed.

Lemma chg_refl A (R : stack -> stack -> Prop) (l : cells A) : (forall s, R s s) -> chg R l l.
Proof. intros H. induction l; constructor; auto. Qed.

Lemma chg_imp A (R R' : stack -> stack -> Prop) (l l' : cells A) : (forall s s', R s s' -> R' s s') -> chg R l l' -> chg R' l l'.
Proof. intros H F. induction F as [|c c' l l' [E Q] F IH]; constructor; auto. Qed.

Lemma chg_trans A (R1 R2 R3 : stack -> stack -> Prop) (l1 l2 l3 : cells A) : (forall s1 s2 s3, R1 s1 s2 -> R2 s2 s3 -> R3 s1 s3) ->
  chg R1 l1 l2 -> chg R2 l2 l3 -> chg R3 l1 l3.
Proof.
  intros H F. revert l3. induction F as [|c c' l l' [E Q] F IH]; intros l3 G; inversion G as [|? c3 ? l4 [E' Q'] G']; subst; constructor.
  - split; [congruence|eauto].
  - apply IH. exact G'.
Qed.

Lemma chg_values A R (l l' : cells A) : chg R l l' -> map fst l' = map fst l.
Proof. induction 1 as [|c c' l l' [E _] _ IH]; cbn [map]; [reflexivity|]. rewrite E, IH. reflexivity. Qed.

Lemma chg_length A R (l l' : cells A) : chg R l l' -> length l' = length l.
Proof. intros H. apply chg_values in H. rewrite <- (map_length fst l'), H. apply map_length. Qed.

Lemma chg_each A (R : stack -> stack -> Prop) (P Q : stack -> Prop) (l l' : cells A) : (forall s s', R s s' -> P s -> Q s') -> chg R l l' -> each P l -> each Q l'.
Proof.
  intros H F. unfold each. induction F as [|c c' l l' [_ K] F IH]; intros G; [constructor|].
  inversion G; subst. constructor; eauto.
Qed.

Lemma chg_app A R (l1 l1' l2 l2' : cells A) : chg R l1 l1' -> chg R l2 l2' -> chg R (l1 ++ l2) (l1' ++ l2').
Proof. apply Forall2_app. Qed.

Lemma chg_firstn A R (l l' : cells A) n : chg R l l' -> chg R (firstn n l) (firstn n l').
Proof. intros F. revert n. induction F; intros [|n]; cbn [firstn]; constructor; auto. apply IHF. Qed.

Lemma chg_skipn A R (l l' : cells A) n : chg R l l' -> chg R (skipn n l) (skipn n l').
Proof. intros F. revert n. induction F; intros [|n]; cbn [skipn]; try (constructor; auto). apply IHF. Qed.

Lemma each_app A P (l l' : cells A) : each P (l ++ l') <-> each P l /\ each P l'.
Proof. apply Forall_app. Qed.

Lemma each_sub A P (l : cells A) i n : each P l -> each P (firstn n (skipn i l)).
Proof.
  unfold each. rewrite !Forall_forall. intros H c Hc. apply H. rewrite <- (firstn_skipn i l). apply in_or_app. right.
  rewrite <- (firstn_skipn n (skipn i l)). apply in_or_app. auto.
Qed.

Lemma each_imp A (P Q : stack -> Prop) (l : cells A) : (forall s, P s -> Q s) -> each P l -> each Q l.
Proof. intros H. apply Forall_impl. auto. Qed.

Lemma access_ok A (f : stack -> res stack) push (P : stack -> Prop) (R : stack -> stack -> Prop) (l : cells A) :
  (forall s, P s -> exists s', f s = Ok s' /\ R s (push ++ s')) -> each P l ->
  exists l', access f push l = Ok l' /\ chg R l l'.
Proof.
  intros H. unfold each. induction l as [|[x s] l IH]; intros F.
  - exists []. split; [reflexivity|constructor].
  - inversion F as [|? ? Hs Hl]; subst. cbn [snd] in Hs. destruct (H _ Hs) as (s' & E & K). destruct (IH Hl) as (l' & E' & G).
    cbn [access]. rewrite E. cbn [bind]. rewrite E'. cbn [bind]. eexists. split; [reflexivity|]. constructor; [|exact G]. auto.
Qed.

Lemma range_split A (l : list A) i n : l = firstn i l ++ firstn n (skipn i l) ++ skipn (i + n) l.
Proof.
  rewrite <- (firstn_skipn i l) at 1. f_equal. rewrite <- (firstn_skipn n (skipn i l)) at 1. f_equal.
  rewrite skipn_skipn. replace (n + i) with (i + n) by lia. reflexivity.
Qed.

Lemma range_mid A (a m b : list A) i n : length a = i -> length m = n -> firstn n (skipn i (a ++ m ++ b)) = m.
Proof.
  intros <- <-. rewrite skipn_app, skipn_all, Nat.sub_diag. cbn [app skipn]. rewrite firstn_app, firstn_all, Nat.sub_diag.
  cbn [firstn]. apply app_nil_r.
Qed.

(** What an access to [n] elements from the [i]th on does: the others stay as they are. *)
Lemma access_range_ok A (f : stack -> res stack) push (P : stack -> Prop) (R : stack -> stack -> Prop) (l : cells A) i n :
  (forall s, P s -> exists s', f s = Ok s' /\ R s (push ++ s')) -> i + n <= length l -> each P (firstn n (skipn i l)) ->
  exists m, access_range f push l i n = Ok (firstn i l ++ m ++ skipn (i + n) l) /\ chg R (firstn n (skipn i l)) m.
Proof.
  intros H Hl F. unfold access_range. rewrite (proj2 (Nat.leb_le _ _) Hl).
  destruct (access_ok _ f push P R _ H F) as (m & E & C). rewrite E. cbn [bind]. exists m. auto.
Qed.

(** [l] is the buffer at [a] *)
Definition buf {A} (h : bheap A) (a : nat) (l : cells A) : Prop := nth_error (hp h) a = Some (Some l).

(** [h'] is [h] with [l'] at [a] *)
Definition upto {A} (h h' : bheap A) (a : nat) (l' : cells A) : Prop := hp h' = upd (hp h) a (Some l').

Lemma upd_upd A (l : list A) i x y : upd (upd l i x) i y = upd l i y.
Proof. revert i. induction l as [|z l IH]; intros [|i]; cbn [upd]; auto. f_equal. apply IH. Qed.

Lemma upd_same A (l : list A) i x : nth_error l i = Some x -> upd l i x = l.
Proof.
  revert i. induction l as [|z l IH]; intros [|i] H; cbn in *; try discriminate; [congruence|].
  f_equal. apply IH. exact H.
Qed.

Lemma buf_lt A (h : bheap A) a l : buf h a l -> a < length (hp h).
Proof. intros H. apply nth_error_Some. unfold buf in H. congruence. Qed.

Lemma buf_cells A (h : bheap A) a l : buf h a l -> cells_at h a = Ok l.
Proof. unfold buf, cells_at. intros ->. reflexivity. Qed.

Lemma upto_buf A (h h' : bheap A) a l l' : buf h a l -> upto h h' a l' -> buf h' a l'.
Proof.
  intros H E. unfold buf, upto in *. rewrite E, nth_error_upd, Nat.eqb_refl.
  apply buf_lt in H. apply Nat.ltb_lt in H. rewrite H. reflexivity.
Qed.

Lemma upto_other A (h h' : bheap A) a l' b l : b <> a -> upto h h' a l' -> buf h b l -> buf h' b l.
Proof. intros N E H. unfold buf, upto in *. rewrite E, nth_error_upd. destruct (Nat.eqb_spec b a); [congruence|exact H]. Qed.

Lemma upto_refl A (h : bheap A) a l : buf h a l -> upto h h a l.
Proof. intros H. unfold upto. symmetry. apply upd_same. exact H. Qed.

Lemma upto_trans A (h1 h2 h3 : bheap A) a l2 l3 : upto h1 h2 a l2 -> upto h2 h3 a l3 -> upto h1 h3 a l3.
Proof. unfold upto. intros E1 E2. rewrite E2, E1. apply upd_upd. Qed.

Lemma buf_next A (h : bheap A) a l : buf h a l -> buf (next_tag h) a l.
Proof. intros H. exact H. Qed.

Lemma use_ok A (f : stack -> res stack) push (P : stack -> Prop) (R : stack -> stack -> Prop) (h : bheap A) l r i n :
  (forall s, P s -> exists s', f s = Ok s' /\ R s (push ++ s')) -> buf h (b_addr r) l ->
  b_start r + i + n <= length l -> each P (firstn n (skipn (b_start r + i) l)) ->
  exists h' m, use f push h r i n = Ok h' /\ hp_tag h' = hp_tag h
    /\ upto h h' (b_addr r) (firstn (b_start r + i) l ++ m ++ skipn (b_start r + i + n) l)
    /\ chg R (firstn n (skipn (b_start r + i) l)) m.
Proof.
  intros H B Hl F. unfold use. destruct (Nat.eqb_spec n 0) as [->|Hn].
  - exists h, []. split; [reflexivity|]. split; [reflexivity|]. split; [|cbn [firstn]; constructor].
    rewrite Nat.add_0_r. cbn [app]. rewrite firstn_skipn. apply upto_refl. exact B.
  - rewrite (buf_cells _ _ _ _ B). cbn [bind].
    destruct (access_range_ok _ f push P R l (b_start r + i) n H Hl F) as (m & E & C). rewrite E. cbn [bind].
    eexists _, m. split; [reflexivity|]. split; [reflexivity|]. split; [reflexivity|exact C].
Qed.

(** A range of which only the stacks have changed *)
Lemma chg_range A (R : stack -> stack -> Prop) (l : cells A) i n m : (forall s, R s s) -> chg R (firstn n (skipn i l)) m ->
  chg R l (firstn i l ++ m ++ skipn (i + n) l).
Proof.
  intros H C. rewrite (range_split _ l i n) at 1. apply chg_app; [apply chg_refl; exact H|]. apply chg_app; [exact C|apply chg_refl; exact H].
Qed.

(** ** References *)

(** [pts l a n r t]: [r] points to [t], which it may read, among the first [n] elements of the buffer [l] at [a] *)
Definition pts {A} (l : cells A) (a n : nat) (r : bref) (t : list A) : Prop :=
  b_addr r = a /\ b_start r + b_len r <= n /\ n <= length l
  /\ map fst (firstn (b_len r) (skipn (b_start r) l)) = t
  /\ each (rd (b_tag r)) (firstn (b_len r) (skipn (b_start r) l)).

(** [kept n l l']: the first [n] elements are the same, and may be read by those who could *)
Definition kept {A} (n : nat) (l l' : cells A) : Prop := chg ext (firstn n l) (firstn n l') /\ length l' = length l.

Lemma kept_refl A n (l : cells A) : kept n l l.
Proof. split; [apply chg_refl, ext_refl|reflexivity]. Qed.

Lemma kept_le A n m (l l' : cells A) : n <= m -> kept m l l' -> kept n l l'.
Proof.
  intros H [F L]. split; [|exact L]. apply (chg_firstn _ _ _ _ n) in F. rewrite !firstn_firstn in F.
  replace (Nat.min n m) with n in F by lia. exact F.
Qed.

Lemma kept_trans A n (l1 l2 l3 : cells A) : kept n l1 l2 -> kept n l2 l3 -> kept n l1 l3.
Proof. intros [F L] [F' L']. split; [|congruence]. eapply chg_trans; [apply ext_trans|exact F|exact F']. Qed.

Lemma kept_chg A n (l l' : cells A) : chg ext l l' -> kept n l l'.
Proof. intros H. split; [apply chg_firstn; exact H|]. eapply chg_length; exact H. Qed.

Lemma kept_sub A n (l l' : cells A) s k : kept n l l' -> s + k <= n ->
  chg ext (firstn k (skipn s l)) (firstn k (skipn s l')).
Proof.
  intros [F L] H. assert (G : forall x : cells A, firstn k (skipn s x) = firstn k (skipn s (firstn n x))).
  { intros x. rewrite skipn_firstn_comm, firstn_firstn. f_equal. lia. }
  rewrite (G l'), (G l). apply chg_firstn, chg_skipn. exact F.
Qed.

Lemma pts_kept A (l l' : cells A) a n n' r t : kept n l l' -> n <= n' -> n' <= length l' ->
  pts l a n r t -> pts l' a n' r t.
Proof.
  intros K H1 H2 (E1 & E2 & E3 & E4 & E5). pose proof (kept_sub _ _ _ _ _ _ K E2) as C.
  split; [exact E1|]. split; [lia|]. split; [exact H2|]. split.
  - rewrite (chg_values _ _ _ _ C). exact E4.
  - eapply chg_each; [|exact C|exact E5]. intros s s' H. apply H.
Qed.

Lemma pts_length A (l : cells A) a n r t : pts l a n r t -> length t = b_len r.
Proof. intros (_ & E2 & E3 & <- & _). rewrite map_length, firstn_length, skipn_length. lia. Qed.

Lemma pts_all A (l : cells A) a n r t : pts l a n r t -> pts l a (length l) r t.
Proof. intros (H1 & H2 & H3 & H4 & H5). split; [exact H1|]. split; [lia|]. auto. Qed.

(** Reading through a reference changes nothing. *)
Lemma read_ok A (h : bheap A) l a n r t : buf h a l -> pts l a n r t -> read h r = Ok (t, h).
Proof.
  intros B (E1 & E2 & E3 & E4 & E5). subst a. unfold read, use. destruct (Nat.eqb_spec (b_len r) 0) as [E|E].
  - cbn [bind]. rewrite E in E4. cbn in E4. subst t. reflexivity.
  - rewrite (buf_cells _ _ _ _ B). cbn [bind]. rewrite Nat.add_0_r.
    destruct (access_range_ok _ (read_access (b_tag r)) [] (rd (b_tag r)) eq l (b_start r) (b_len r)) as (m & Em & C).
    { intros s Hs. exists s. split; [apply rd_read; exact Hs|reflexivity]. }
    { lia. }
    { exact E5. }
    assert (M : firstn (b_len r) (skipn (b_start r) l) = m).
    { clear -C. induction C as [|[x s] [x' s'] k k' [Ex Es] C IH]; [reflexivity|]. cbn in *. subst. f_equal. }
    rewrite <- M, <- range_split in Em. rewrite Em. cbn [bind].
    rewrite (upd_same _ _ _ _ B). rewrite (buf_cells _ _ _ l) by exact B. cbn [bind]. rewrite E4.
    destruct h. reflexivity.
Qed.

(** Tag [t] may read, whether or not it may write *)
Definition reader (t : nat) (s : stack) : Prop := rd t s \/ own t s.

Lemma reader_read t s : reader t s -> read_access t s = Ok s.
Proof. intros [H|H]; [apply rd_read|apply own_read]; exact H. Qed.

(** [s'] is [s] with readers on top *)
Definition under (s s' : stack) : Prop := ext s s' /\ (forall t, has t s -> has t s') /\ (forall t, own t s -> own t s').

Lemma under_push t s : under s (Shr t :: s).
Proof. split; [|split]; unfold ext, has; cbn; auto. Qed.

Lemma under_refl s : under s s.
Proof. split; [apply ext_refl|auto]. Qed.

Lemma under_trans s1 s2 s3 : under s1 s2 -> under s2 s3 -> under s1 s3.
Proof. intros (A & B & B') (C & D & D'). split; [eapply ext_trans; eassumption|auto]. Qed.

Lemma sub_length A (l : list A) i n : i + n <= length l -> length (firstn n (skipn i l)) = n.
Proof. intros H. rewrite firstn_length, skipn_length. lia. Qed.

Lemma sub_sub A (l : list A) i n j k : j + k <= n -> firstn k (skipn j (firstn n (skipn i l))) = firstn k (skipn (i + j) l).
Proof.
  intros H. rewrite skipn_firstn_comm, firstn_firstn, skipn_skipn. replace (Nat.min k (n - j)) with k by lia. reflexivity.
Qed.

Lemma reborrow_ok A (h : bheap A) l r i n : buf h (b_addr r) l -> b_start r + b_len r <= length l ->
  each (reader (b_tag r)) (firstn (b_len r) (skipn (b_start r) l)) -> i + n <= b_len r ->
  exists h' l', reborrow h r i n = Ok (MkB (b_addr r) (b_start r + i) n (hp_tag h), h') /\ upto h h' (b_addr r) l'
    /\ chg under l l' /\ each (rd (hp_tag h)) (firstn n (skipn (b_start r + i) l')).
Proof.
  intros B Hl F Hn. unfold reborrow. rewrite (proj2 (Nat.leb_le _ _) Hn).
  assert (F' : each (reader (b_tag r)) (firstn n (skipn (b_start r + i) l))).
  { rewrite <- (sub_sub _ l (b_start r) (b_len r) i n Hn). apply each_sub. exact F. }
  destruct (use_ok _ (read_access (b_tag r)) [Shr (hp_tag h)] (reader (b_tag r)) (fun s s' => s' = Shr (hp_tag h) :: s)
              (next_tag h) l r i n) as (h' & m & E & _ & U & C).
  { intros s Hs. exists s. split; [apply reader_read; exact Hs|reflexivity]. }
  { apply buf_next. exact B. }
  { lia. }
  { exact F'. }
  rewrite E. cbn [bind]. exists h', (firstn (b_start r + i) l ++ m ++ skipn (b_start r + i + n) l).
  split; [reflexivity|]. split; [exact U|]. split.
  - apply chg_range; [apply under_refl|]. eapply chg_imp; [|exact C]. intros s s' ->. apply under_push.
  - rewrite range_mid.
    + clear -C. unfold each. induction C as [|c c' k k' [_ E] C IH]; constructor; auto. rewrite E. left. reflexivity.
    + rewrite firstn_length. lia.
    + rewrite (chg_length _ _ _ _ C), sub_length; lia.
Qed.

(** [&r[i..j]] *)
Lemma subslice_ok A (h : bheap A) l r i j : buf h (b_addr r) l -> b_start r + b_len r <= length l ->
  each (reader (b_tag r)) (firstn (b_len r) (skipn (b_start r) l)) -> i <= j -> j <= b_len r ->
  exists h' l' r', subslice h r i j = Ok (r', h') /\ upto h h' (b_addr r) l' /\ chg under l l'
    /\ b_addr r' = b_addr r /\ b_start r' = b_start r + i /\ b_len r' = j - i
    /\ each (rd (b_tag r')) (firstn (j - i) (skipn (b_start r + i) l')).
Proof.
  intros B Hl F Hij Hj. unfold subslice. rewrite (proj2 (Nat.leb_le _ _) Hij).
  destruct (reborrow_ok _ h l r 0 (b_len r) B Hl F) as (h1 & l1 & E1 & U1 & C1 & F1); [lia|]. rewrite E1. cbn [bind].
  destruct (reborrow_ok _ h1 l1 (MkB (b_addr r) (b_start r + 0) (b_len r) (hp_tag h)) i (j - i)) as (h2 & l2 & E2 & U2 & C2 & F2);
    cbn [b_addr b_start b_len b_tag].
  { eapply upto_buf; eassumption. }
  { rewrite (chg_length _ _ _ _ C1). lia. }
  { eapply each_imp; [|exact F1]. intros s Hs. left. exact Hs. }
  { lia. }
  cbn [b_addr b_start b_len b_tag] in *. rewrite E2. eexists h2, l2, _. split; [reflexivity|].
  split; [eapply upto_trans; eassumption|]. split; [eapply chg_trans; [apply under_trans|exact C1|exact C2]|].
  cbn [b_addr b_start b_len b_tag]. split; [reflexivity|]. split; [lia|]. split; [reflexivity|].
  replace (b_start r + 0 + i) with (b_start r + i) in F2 by lia. exact F2.
Qed.

Lemma under_ext A (l l' : cells A) : chg under l l' -> chg ext l l'.
Proof. apply chg_imp. intros s s' [H _]. exact H. Qed.

(** ... from a reference *)
Lemma subslice_pts A (h : bheap A) l a n r t i j : buf h a l -> pts l a n r t -> i <= j -> j <= b_len r ->
  exists h' l' r', subslice h r i j = Ok (r', h') /\ upto h h' a l' /\ chg under l l'
    /\ pts l' a n r' (firstn (j - i) (skipn i t)) /\ b_len r' = j - i.
Proof.
  intros B (E1 & E2 & E3 & E4 & E5) Hij Hj. subst a.
  destruct (subslice_ok _ h l r i j B) as (h' & l' & r' & E & U & C & R1 & R2 & R3 & R4); try assumption.
  { lia. }
  { eapply each_imp; [|exact E5]. intros s Hs. left. exact Hs. }
  exists h', l', r'. split; [exact E|]. split; [exact U|]. split; [exact C|]. split; [|exact R3].
  unfold pts. rewrite R1, R2, R3. split; [reflexivity|]. split; [lia|]. split; [rewrite (chg_length _ _ _ _ C); exact E3|].
  split; [|exact R4]. rewrite <- E4. rewrite <- firstn_map, <- skipn_map, (chg_values _ _ _ _ C).
  rewrite <- (firstn_map fst (b_len r)), <- skipn_map. rewrite sub_sub by lia. reflexivity.
Qed.

(** [whole r l a t]: a mutable reference to all of the buffer [l] at [a] *)
Definition whole {A} (r : bref) (l : cells A) (a : nat) : Prop :=
  b_addr r = a /\ b_start r = 0 /\ b_len r = length l /\ each (own (b_tag r)) l.

(** ... from a mutable reference *)
Lemma subslice_whole A (h : bheap A) l a r i j : buf h a l -> whole r l a -> i <= j -> j <= length l ->
  exists h' l' r', subslice h r i j = Ok (r', h') /\ upto h h' a l' /\ chg under l l'
    /\ pts l' a j r' (firstn (j - i) (skipn i (map fst l))) /\ b_len r' = j - i.
Proof.
  intros B (E1 & E2 & E3 & E4) Hij Hj. subst a.
  destruct (subslice_ok _ h l r i j B) as (h' & l' & r' & E & U & C & R1 & R2 & R3 & R4); try assumption; try lia.
  { rewrite E2, E3. cbn [skipn]. rewrite firstn_all. eapply each_imp; [|exact E4]. intros s Hs. right. exact Hs. }
  exists h', l', r'. split; [exact E|]. split; [exact U|]. split; [exact C|]. split; [|exact R3].
  rewrite E2 in *. cbn [Nat.add] in *. unfold pts. rewrite R1, R2, R3. split; [reflexivity|]. split; [lia|].
  split; [rewrite (chg_length _ _ _ _ C); exact Hj|].
  split; [|exact R4]. rewrite <- firstn_map, <- skipn_map, (chg_values _ _ _ _ C). reflexivity.
Qed.

Lemma whole_under A r (l l' : cells A) a : whole r l a -> chg under l l' -> whole r l' a.
Proof.
  intros (E1 & E2 & E3 & E4) C. split; [exact E1|]. split; [exact E2|]. split; [rewrite (chg_length _ _ _ _ C); exact E3|].
  eapply chg_each; [|exact C|exact E4]. intros s s' (_ & _ & H). apply H.
Qed.

(** [base t l]: tag [t] may write all of it *)
Definition base {A} (t : nat) (l : cells A) : Prop := each (has t) l.

Lemma base_chg A t (l l' : cells A) : chg under l l' -> base t l -> base t l'.
Proof. apply chg_each. intros s s' (_ & H & _). apply H. Qed.

Lemma each_upd A P (l : cells A) i c : each P l -> P (snd c) -> each P (upd l i c).
Proof.
  unfold each. rewrite !Forall_forall. intros F H x Hx. apply In_nth_error in Hx as [k Hk]. rewrite nth_error_upd in Hk.
  destruct ((k =? i) && (i <? length l)); [congruence|]. apply F. eapply nth_error_In; exact Hk.
Qed.

Lemma map_upd A B (f : A -> B) l i x : map f (upd l i x) = upd (map f l) i (f x).
Proof. revert i. induction l as [|y l IH]; intros [|i]; cbn [upd map]; auto. rewrite IH. reflexivity. Qed.

Lemma firstn_upd_le A (l : list A) n i x : n <= i -> firstn n (upd l i x) = firstn n l.
Proof.
  revert n i. induction l as [|y l IH]; intros n i H; destruct i, n; cbn [upd firstn]; auto; try lia.
  rewrite IH by lia. reflexivity.
Qed.

(** [r[i] = x] *)
Lemma write_ok A (h : bheap A) l a r i x : buf h a l -> whole r l a -> i < length l ->
  exists h' l', write h r i x = Ok h' /\ upto h h' a l' /\ whole r l' a /\ map fst l' = upd (map fst l) i x /\ kept i l l'
    /\ (forall b, base b l -> base b l').
Proof.
  intros B (E1 & E2 & E3 & E4) Hi. subst a. unfold write. rewrite E3. rewrite (proj2 (Nat.ltb_lt _ _) Hi).
  destruct (use_ok _ (write_access (b_tag r)) [] (own (b_tag r)) (fun s s' => own (b_tag r) s' /\ forall b, has b s -> has b s') h l r i 1) as (h1 & m & E & _ & U & C).
  { intros s Hs. destruct (own_write _ _ Hs) as (s' & K1 & K2 & K3). exists s'. auto. }
  { exact B. }
  { lia. }
  { apply each_sub. exact E4. }
  rewrite E2 in *. cbn [Nat.add] in *. rewrite E. cbn [bind].
  set (l1 := firstn i l ++ m ++ skipn (i + 1) l) in *.
  assert (C1 : chg (fun s s' => (own (b_tag r) s -> own (b_tag r) s') /\ forall b, has b s -> has b s') l l1).
  { apply chg_range; [auto|]. eapply chg_imp; [|exact C]. intros s s' [H1 H2]. auto. }
  assert (L1 : length l1 = length l) by (eapply chg_length; exact C1).
  assert (F1 : each (own (b_tag r)) l1) by (eapply chg_each; [|exact C1|exact E4]; intros s s' [H _]; exact H).
  pose proof (upto_buf _ _ _ _ _ _ B U) as B1. rewrite (buf_cells _ _ _ _ B1). cbn [bind].
  destruct (nth_error l1 i) as [[y s]|] eqn:En; [|apply nth_error_None in En; lia].
  assert (Hs : own (b_tag r) s).
  { unfold each in F1. rewrite Forall_forall in F1. apply (F1 (y, s)). eapply nth_error_In; exact En. }
  eexists _, (upd l1 i (x, s)). split; [reflexivity|].
  split; [eapply upto_trans; [exact U|reflexivity]|]. split; [|split; [|split]].
  - split; [reflexivity|]. split; [exact E2|]. split; [rewrite length_upd; congruence|]. apply each_upd; assumption.
  - rewrite map_upd, (chg_values _ _ _ _ C1). reflexivity.
  - split; [|rewrite length_upd; exact L1]. rewrite firstn_upd_le by lia. unfold l1.
    rewrite firstn_app, firstn_firstn, Nat.min_id, firstn_length. replace (i - Nat.min i (length l)) with 0 by lia.
    cbn [firstn]. rewrite app_nil_r. apply chg_refl, ext_refl.
  - intros b Hb. apply each_upd.
    + eapply chg_each; [|exact C1|exact Hb]. intros s0 s' [_ H]. apply H.
    + cbn [snd]. assert (Hl1 : each (has b) l1) by (eapply chg_each; [|exact C1|exact Hb]; intros s0 s' [_ H]; apply H).
      unfold each in Hl1. rewrite Forall_forall in Hl1. apply (Hl1 (y, s)). eapply nth_error_In; exact En.
Qed.

(** ** Vecs *)

Lemma all_range A (l m : list A) : firstn 0 l ++ m ++ skipn (length l) l = m.
Proof. rewrite skipn_all. cbn [firstn app]. apply app_nil_r. Qed.

Lemma vec_mut_ok A (h : bheap A) l v : buf h (v_addr v) l -> base (v_tag v) l ->
  exists h' l' r, vec_mut h v = Ok (r, h') /\ upto h h' (v_addr v) l' /\ whole r l' (v_addr v) /\ map fst l' = map fst l /\ base (v_tag v) l'.
Proof.
  intros B F. unfold vec_mut, vec_ptr. rewrite (buf_cells _ _ _ _ B). cbn [bind b_len]. unfold reborrow_mut. cbn [b_len].
  rewrite (proj2 (Nat.leb_le _ _)) by lia.
  destruct (use_ok _ (write_access (v_tag v)) [Uniq (hp_tag h)] (has (v_tag v)) (fun s s' => own (hp_tag h) s' /\ has (v_tag v) s')
    (next_tag h) l (MkB (v_addr v) 0 (length l) (v_tag v)) 0 (length l)) as (h' & m & E & _ & U & C); cbn [b_addr b_start b_len b_tag].
  { intros s Hs. destruct (has_write _ _ Hs) as (s' & K1 & K2 & K3). exists s'. split; [exact K1|]. split; [reflexivity|right; exact K3]. }
  { exact B. }
  { lia. }
  { apply each_sub. exact F. }
  cbn [b_addr b_start b_len b_tag Nat.add] in *. rewrite E. cbn [bind]. rewrite all_range in U. cbn [skipn] in C. rewrite firstn_all in C.
  eexists h', m, _. split; [reflexivity|]. split; [exact U|]. split; [|split].
  - split; [reflexivity|]. split; [reflexivity|]. split; [cbn; symmetry; eapply chg_length; exact C|].
    cbn [b_tag]. eapply (chg_each _ _ (has (v_tag v))); [|exact C|exact F]. intros s s' [H _] _. exact H.
  - eapply chg_values; exact C.
  - eapply (chg_each _ _ (has (v_tag v))); [|exact C|exact F]. intros s s' [_ H] _. exact H.
Qed.

Lemma each_nth A P (l : cells A) i c : each P l -> nth_error l i = Some c -> P (snd c).
Proof. unfold each. rewrite Forall_forall. intros F H. apply F. eapply nth_error_In; exact H. Qed.

Lemma vec_set_ok A (h : bheap A) l v i x : buf h (v_addr v) l -> base (v_tag v) l -> i < length l ->
  exists h' l', vec_set h v i x = Ok h' /\ upto h h' (v_addr v) l' /\ map fst l' = upd (map fst l) i x /\ base (v_tag v) l'.
Proof.
  intros B F Hi. unfold vec_set. destruct (vec_mut_ok _ h l v B F) as (h1 & l1 & r & E1 & U1 & (W1 & W2 & W3 & W4) & V1 & F1).
  rewrite E1. cbn [bind]. pose proof (upto_buf _ _ _ _ _ _ B U1) as B1.
  assert (L1 : length l1 = length l) by (rewrite <- (map_length fst l1), V1; apply map_length).
  unfold reborrow_mut. rewrite (proj2 (Nat.leb_le (i + 1) (b_len r))) by lia.
  destruct (use_ok _ (write_access (b_tag r)) [Uniq (hp_tag h1)] (fun s => own (b_tag r) s /\ has (v_tag v) s)
    (fun s s' => own (hp_tag h1) s' /\ has (v_tag v) s') (next_tag h1) l1 r i 1) as (h2 & m & E & _ & U & C).
  { intros s [Hs Hb]. destruct (own_write _ _ Hs) as (s' & K1 & K2 & K3). exists s'. split; [exact K1|]. split; [reflexivity|right; apply K3; exact Hb]. }
  { rewrite W1. exact B1. }
  { lia. }
  { apply each_sub. unfold base, each in *. rewrite Forall_forall in *. intros c Hc. split; [apply W4|apply F1]; exact Hc. }
  rewrite E. cbn [bind]. rewrite W1, W2 in *. cbn [Nat.add] in *.
  set (l2 := firstn i l1 ++ m ++ skipn (i + 1) l1) in *.
  assert (Lm : length m = 1) by (rewrite (chg_length _ _ _ _ C), sub_length; lia).
  assert (E2 : firstn 1 (skipn i l2) = m) by (apply range_mid; [rewrite firstn_length; lia|exact Lm]).
  assert (V2 : map fst l2 = map fst l1).
  { unfold l2. rewrite !map_app, (chg_values _ _ _ _ C), <- !map_app. rewrite <- range_split. reflexivity. }
  assert (F2 : base (v_tag v) l2).
  { unfold l2, base. rewrite !each_app. split; [|split].
    - apply (each_sub _ _ l1 0). exact F1.
    - eapply (chg_each _ _ (fun _ => True)); [|exact C|]; [intros s s' [_ H] _; exact H|]. unfold each. apply Forall_forall. auto.
    - rewrite <- (firstn_all (skipn (i + 1) l1)). apply each_sub. exact F1. }
  assert (Fm : each (own (hp_tag h1)) m).
  { eapply (chg_each _ _ (fun _ => True)); [|exact C|]; [intros s s' [H _] _; exact H|]. unfold each. apply Forall_forall. auto. }
  pose proof (upto_buf _ (next_tag h1) _ _ _ _ B1 U) as B2.
  assert (L2 : length l2 = length l) by (rewrite <- (map_length fst l2), V2, V1; apply map_length).
  (* the write *)
  unfold write. cbn [b_len]. rewrite (proj2 (Nat.ltb_lt 0 1)) by lia.
  destruct (use_ok _ (write_access (hp_tag h1)) [] (fun s => own (hp_tag h1) s /\ has (v_tag v) s)
    (fun s s' => own (hp_tag h1) s' /\ has (v_tag v) s') h2 l2 (MkB (v_addr v) i 1 (hp_tag h1)) 0 1) as (h3 & m3 & E3 & _ & U3 & C3);
    cbn [b_addr b_start b_len b_tag].
  { intros s [Hs Hb]. destruct (own_write _ _ Hs) as (s' & K1 & K2 & K3). exists s'. split; [exact K1|]. auto. }
  { exact B2. }
  { lia. }
  { rewrite Nat.add_0_r, E2. unfold base, each in *. rewrite Forall_forall in *. intros c Hc. split; [apply Fm; exact Hc|].
    apply F2. unfold l2. apply in_or_app. right. apply in_or_app. left. exact Hc. }
  cbn [b_addr b_start b_len b_tag] in *. rewrite E3. cbn [bind].
  pose proof (upto_buf _ _ _ _ _ _ B2 U3) as B3. rewrite (buf_cells _ _ _ _ B3). cbn [bind]. rewrite Nat.add_0_r in *. rewrite E2 in C3.
  set (l3 := firstn i l2 ++ m3 ++ skipn (i + 1) l2) in *.
  assert (V3 : map fst l3 = map fst l2).
  { unfold l3. rewrite !map_app, (chg_values _ _ _ _ C3), <- E2, <- !map_app. rewrite <- range_split. reflexivity. }
  assert (L3 : length l3 = length l) by (rewrite <- (map_length fst l3), V3, V2, V1; apply map_length).
  assert (F3 : base (v_tag v) l3).
  { unfold l3, base. rewrite !each_app. split; [|split].
    - apply (each_sub _ _ l2 0). exact F2.
    - eapply (chg_each _ _ (fun _ => True)); [|exact C3|]; [intros s s' [_ H] _; exact H|]. unfold each. apply Forall_forall. auto.
    - rewrite <- (firstn_all (skipn (i + 1) l2)). apply each_sub. exact F2. }
  destruct (nth_error l3 i) as [[y s]|] eqn:En; [|apply nth_error_None in En; lia].
  eexists _, (upd l3 i (x, s)). split; [reflexivity|]. split; [|split].
  - eapply upto_trans; [exact U1|]. eapply upto_trans; [exact U|]. eapply upto_trans; [exact U3|]. reflexivity.
  - rewrite map_upd, V3, V2, V1. reflexivity.
  - apply each_upd; [exact F3|]. cbn [snd]. exact (each_nth _ _ _ _ _ F3 En).
Qed.

(** [Vec::deref] *)
Lemma vec_ref_ok A (h : bheap A) l v : buf h (v_addr v) l -> base (v_tag v) l ->
  exists h' l' r, vec_ref h v = Ok (r, h') /\ upto h h' (v_addr v) l' /\ chg ext l l' /\ base (v_tag v) l'
    /\ pts l' (v_addr v) (length l') r (map fst l) /\ b_start r = 0.
Proof.
  intros B F. unfold vec_ref, vec_ptr. rewrite (buf_cells _ _ _ _ B). cbn [bind b_len]. unfold reborrow. cbn [b_len].
  rewrite (proj2 (Nat.leb_le _ _)) by lia.
  destruct (use_ok _ (read_access (v_tag v)) [Shr (hp_tag h)] (has (v_tag v))
    (fun s s' => rd (hp_tag h) s' /\ (has (v_tag v) s') /\ ext s s')
    (next_tag h) l (MkB (v_addr v) 0 (length l) (v_tag v)) 0 (length l)) as (h' & m & E & _ & U & C); cbn [b_addr b_start b_len b_tag].
  { intros s Hs. destruct (has_read _ _ Hs) as (s' & K1 & K2 & K3). exists s'. split; [exact K1|]. cbn [app rd].
    split; [auto|]. split; [right; exact K2|]. intros u Hu. right. apply K3. exact Hu. }
  { exact B. }
  { lia. }
  { apply each_sub. exact F. }
  cbn [b_addr b_start b_len b_tag Nat.add] in *. rewrite E. cbn [bind]. rewrite all_range in U. cbn [skipn] in C. rewrite firstn_all in C.
  assert (Lm : length m = length l) by (eapply chg_length; exact C).
  eexists h', m, _. split; [reflexivity|]. split; [exact U|]. split; [|split; [|split]].
  - eapply chg_imp; [|exact C]. intros s s' (_ & _ & H). exact H.
  - eapply (chg_each _ _ (has (v_tag v))); [|exact C|exact F]. intros s s' (_ & H & _) _. exact H.
  - unfold pts. cbn [b_addr b_start b_len b_tag skipn Nat.add]. rewrite <- Lm, firstn_all. split; [reflexivity|]. split; [lia|]. split; [lia|].
    split; [eapply chg_values; exact C|]. eapply (chg_each _ _ (has (v_tag v))); [|exact C|exact F]. intros s s' (H & _ & _) _. exact H.
  - reflexivity.
Qed.

Lemma reborrow_pts A (h : bheap A) l a n r t i k : buf h a l -> pts l a n r t -> i + k <= b_len r ->
  exists h' l' r', reborrow h r i k = Ok (r', h') /\ upto h h' a l' /\ chg under l l'
    /\ pts l' a n r' (firstn k (skipn i t)) /\ b_len r' = k /\ b_start r' = b_start r + i.
Proof.
  intros B (E1 & E2 & E3 & E4 & E5) Hk. subst a.
  destruct (reborrow_ok _ h l r i k B) as (h' & l' & E & U & C & R4); try assumption.
  { lia. }
  { eapply each_imp; [|exact E5]. intros s Hs. left. exact Hs. }
  eexists h', l', _. split; [exact E|]. split; [exact U|]. split; [exact C|]. cbn [b_len b_start]. split; [|auto].
  unfold pts. cbn [b_addr b_start b_len b_tag]. split; [reflexivity|]. split; [lia|]. split; [rewrite (chg_length _ _ _ _ C); exact E3|].
  split; [|exact R4]. rewrite <- E4. rewrite <- firstn_map, <- skipn_map, (chg_values _ _ _ _ C).
  rewrite <- (firstn_map fst (b_len r)), <- skipn_map. rewrite sub_sub by lia. reflexivity.
Qed.

(** [&v[i..j]] *)
Lemma vec_slice_ok A (h : bheap A) l v i j : buf h (v_addr v) l -> base (v_tag v) l -> i <= j -> j <= length l ->
  exists h' l' r, vec_slice h v i j = Ok (r, h') /\ upto h h' (v_addr v) l' /\ chg ext l l' /\ base (v_tag v) l'
    /\ pts l' (v_addr v) (length l') r (firstn (j - i) (skipn i (map fst l))) /\ b_len r = j - i.
Proof.
  intros B F Hij Hj. unfold vec_slice. rewrite (proj2 (Nat.leb_le _ _) Hij).
  destruct (vec_ref_ok _ h l v B F) as (h1 & l1 & r1 & E1 & U1 & C1 & F1 & P1 & S1). rewrite E1. cbn [bind].
  pose proof (upto_buf _ _ _ _ _ _ B U1) as B1.
  destruct (reborrow_pts _ h1 l1 _ _ _ _ i (j - i) B1 P1) as (h2 & l2 & r2 & E2 & U2 & C2 & P2 & R2 & _).
  { rewrite <- (pts_length _ _ _ _ _ _ P1), map_length. lia. }
  exists h2, l2, r2. split; [exact E2|]. split; [eapply upto_trans; eassumption|].
  split; [eapply chg_trans; [apply ext_trans|exact C1|apply under_ext; exact C2]|]. split; [eapply base_chg; eassumption|].
  split; [|exact R2]. rewrite (chg_length _ _ _ _ C2). exact P2.
Qed.

Lemma vec_new_buf A (h : bheap A) l b m : buf h b m -> buf (snd (vec_new h l)) b m.
Proof. intros H. unfold buf, vec_new. cbn [snd hp]. rewrite nth_error_app1; [exact H|]. eapply buf_lt; exact H. Qed.

Definition fresh {A} (t : nat) (l : list A) : cells A := map (fun x => (x, [Uniq t])) l.

Lemma fresh_values A t (l : list A) : map fst (fresh t l) = l.
Proof. unfold fresh. rewrite map_map. cbn. apply map_id. Qed.

Lemma fresh_base A t (l : list A) : base t (fresh t l).
Proof. unfold base, each, fresh. apply Forall_forall. intros c Hc. apply in_map_iff in Hc as (x & <- & _). left. reflexivity. Qed.

Lemma vec_new_ok A (h : bheap A) l : let '(v, h') := vec_new h l in
  v_addr v = length (hp h) /\ buf h' (v_addr v) (fresh (v_tag v) l) /\ (forall b m, buf h b m -> buf h' b m).
Proof.
  unfold vec_new. cbn [v_addr v_tag]. split; [reflexivity|]. split.
  - unfold buf. cbn [hp]. rewrite nth_error_app2, Nat.sub_diag by lia. reflexivity.
  - intros b m H. exact (vec_new_buf _ h l b m H).
Qed.

Lemma upto_length A (h h' : bheap A) a l : upto h h' a l -> length (hp h') = length (hp h).
Proof. intros ->. apply length_upd. Qed.

Lemma vec_clone_ok A (h : bheap A) l v : buf h (v_addr v) l -> base (v_tag v) l ->
  exists h' l' v', vec_clone h v = Ok (v', h') /\ buf h' (v_addr v) l' /\ chg ext l l' /\ base (v_tag v) l'
    /\ v_addr v' = length (hp h) /\ buf h' (v_addr v') (fresh (v_tag v') (map fst l))
    /\ (forall b m, b <> v_addr v -> buf h b m -> buf h' b m).
Proof.
  intros B F. unfold vec_clone. destruct (vec_ref_ok _ h l v B F) as (h1 & l1 & r & E1 & U1 & C1 & F1 & P1 & _). rewrite E1. cbn [bind].
  pose proof (upto_buf _ _ _ _ _ _ B U1) as B1. rewrite (read_ok _ _ _ _ _ _ _ B1 P1). cbn [bind].
  pose proof (vec_new_ok _ h1 (map fst l)) as K. destruct (vec_new h1 (map fst l)) as [v' h'] eqn:En. destruct K as (K1 & K2 & K3).
  exists h', l1, v'. split; [reflexivity|]. split; [apply K3; exact B1|]. split; [exact C1|]. split; [exact F1|].
  split; [rewrite K1; eapply upto_length; exact U1|]. split; [exact K2|].
  intros b m Hb H. apply K3. eapply upto_other; eassumption.
Qed.

Lemma vec_drop_ok A (h : bheap A) l v : buf h (v_addr v) l -> base (v_tag v) l ->
  exists h', vec_drop h v = Ok h' /\ hp h' = upd (hp h) (v_addr v) None.
Proof.
  intros B F. unfold vec_drop, vec_ptr. rewrite (buf_cells _ _ _ _ B). cbn [bind b_len].
  destruct (use_ok _ (write_access (v_tag v)) [] (has (v_tag v)) (fun _ _ => True) h l (MkB (v_addr v) 0 (length l) (v_tag v)) 0 (length l))
    as (h' & m & E & _ & U & C); cbn [b_addr b_start b_len b_tag].
  { intros s Hs. destruct (has_write _ _ Hs) as (s' & K1 & _). exists s'. auto. }
  { exact B. }
  { lia. }
  { apply each_sub. exact F. }
  cbn [b_addr b_start b_len b_tag] in *. rewrite E. cbn [bind]. eexists. split; [reflexivity|]. cbn [hp]. unfold upto in U. rewrite U. apply upd_upd.
Qed.

Lemma vec_grow_ok A g (h : bheap A) l v n d : buf h (v_addr v) l -> base (v_tag v) l ->
  exists v' h' l', vec_grow g h v n d = Ok (v', h') /\ buf h' (v_addr v') l' /\ base (v_tag v') l'
    /\ map fst l' = map fst l ++ repeat d (n - length l)
    /\ (v_addr v' = v_addr v \/ v_addr v' = length (hp h))
    /\ (forall b m, b <> v_addr v -> buf h b m -> buf h' b m).
Proof.
  intros B F. unfold vec_grow. rewrite (buf_cells _ _ _ _ B). cbn [bind]. destruct (Nat.ltb_spec (length l) n) as [Hn|Hn].
  2:{ exists v, h, l. split; [reflexivity|]. split; [exact B|]. split; [exact F|]. replace (n - length l) with 0 by lia.
      rewrite app_nil_r. split; [reflexivity|]. auto. }
  pose proof (vec_drop_ok _ h l v B F) as (h1 & E1 & U1). pose proof (buf_lt _ _ _ _ B) as Hlt.
  destruct g.
  - eexists v, _, (l ++ fresh (v_tag v) (repeat d (n - length l))). split; [reflexivity|].
    assert (U : upto h (MkHeap (upd (hp h) (v_addr v) (Some (l ++ fresh (v_tag v) (repeat d (n - length l))))) (hp_tag h)) (v_addr v)
                  (l ++ fresh (v_tag v) (repeat d (n - length l)))) by reflexivity.
    split; [exact (upto_buf _ _ _ _ _ _ B U)|]. split; [apply each_app; split; [exact F|apply fresh_base]|].
    split; [rewrite map_app, fresh_values; reflexivity|]. split; [auto|].
    intros b m Hb H. exact (upto_other _ _ _ _ _ _ _ Hb U H).
  - rewrite E1. cbn [bind]. eexists _, _, (fresh (hp_tag h1) (map fst l ++ repeat d (n - length l))). split; [reflexivity|].
    cbn [v_addr v_tag]. rewrite U1, upd_upd.
    assert (U : upto h (MkHeap (upd (hp h) (v_addr v) (Some (fresh (hp_tag h1) (map fst l ++ repeat d (n - length l))))) (hp_tag h1 + 1)) (v_addr v)
                  (fresh (hp_tag h1) (map fst l ++ repeat d (n - length l)))) by reflexivity.
    split; [exact (upto_buf _ _ _ _ _ _ B U)|]. split; [apply fresh_base|]. split; [apply fresh_values|]. split; [auto|].
    intros b m Hb H. exact (upto_other _ _ _ _ _ _ _ Hb U H).
  - rewrite E1. cbn [bind]. pose proof (vec_new_ok _ h1 (map fst l ++ repeat d (n - length l))) as K.
    destruct (vec_new h1 (map fst l ++ repeat d (n - length l))) as [v' h'] eqn:En. destruct K as (K1 & K2 & K3).
    eexists v', h', _. split; [reflexivity|]. split; [exact K2|]. split; [apply fresh_base|]. split; [apply fresh_values|].
    split; [right; rewrite K1, U1; apply length_upd|].
    intros b m Hb H. apply K3. unfold buf. rewrite U1, nth_error_upd. destruct (Nat.eqb_spec b (v_addr v)); [congruence|exact H].
Qed.
