(** Lists which are filled from the left with the values of a function. *)
From Verif Require Import Prelude Slab PreludeProofs.
Local Open Scope nat_scope.

Section Tab.
Context {A : Type}.
Variable d : A.

(** The first [n] values of [f], then [d], [t] entries in all. *)
Definition tab (f : nat -> A) (n t : nat) : list A := map f (seq 0 n) ++ repeat d (t - n).

Lemma tab_length f n t : n <= t -> length (tab f n t) = t.
Proof. intros. unfold tab. rewrite app_length, map_length, seq_length, repeat_length. lia. Qed.

Lemma tab_nth_error f n t i :
  nth_error (tab f n t) i = if i <? n then Some (f i) else if i <? t then Some d else None.
Proof.
  unfold tab. destruct (Nat.ltb_spec i n).
  - rewrite nth_error_app1 by (rewrite map_length, seq_length; lia).
    rewrite nth_error_map.
    rewrite (nth_error_nth' (seq 0 n) 0) by (rewrite seq_length; lia).
    rewrite seq_nth by lia. reflexivity.
  - rewrite nth_error_app2 by (rewrite map_length, seq_length; lia).
    rewrite map_length, seq_length. destruct (Nat.ltb_spec i t).
    + rewrite (nth_error_nth' _ d) by (rewrite repeat_length; lia).
      rewrite nth_repeat. reflexivity.
    + apply nth_error_None. rewrite repeat_length. lia.
Qed.

Lemma nth_error_ext (l l' : list A) : (forall i, nth_error l i = nth_error l' i) -> l = l'.
Proof.
  revert l'. induction l as [|a l IH]; intros [|b l'] H; auto.
  - specialize (H 0). discriminate.
  - specialize (H 0). discriminate.
  - f_equal.
    + specialize (H 0). simpl in H. congruence.
    + apply IH. intros i. exact (H (S i)).
Qed.

Lemma tab_idx f n t i : i < n -> idx (tab f n t) i = Ok (f i).
Proof.
  intros. apply idx_nth_error. rewrite tab_nth_error. destruct (Nat.ltb_spec i n); [reflexivity|lia].
Qed.

Lemma tab_set f n t : n < t -> set_idx (tab f n t) n (f n) = Ok (tab f (S n) t).
Proof.
  intros H. rewrite set_idx_ok by (rewrite tab_length; lia). f_equal.
  apply nth_error_ext. intros i. rewrite nth_error_upd, !tab_nth_error, tab_length by lia.
  destruct (Nat.eqb_spec i n) as [->|].
  - destruct (Nat.ltb_spec n (S n)); [|lia]. destruct (Nat.ltb_spec n t); [reflexivity|lia].
  - destruct (Nat.ltb_spec i n), (Nat.ltb_spec i (S n)); try lia; reflexivity.
Qed.

Lemma tab_skip f a b t :
  a <= b -> b <= t -> (forall k, a <= k < b -> f k = d) -> tab f a t = tab f b t.
Proof.
  intros H1 H2 H. apply nth_error_ext. intros i. rewrite !tab_nth_error.
  destruct (Nat.ltb_spec i a), (Nat.ltb_spec i b); try lia; try reflexivity.
  destruct (Nat.ltb_spec i t); [|lia]. rewrite H by lia. reflexivity.
Qed.

Lemma tab_all f t : tab f t t = map f (seq 0 t).
Proof. unfold tab. rewrite Nat.sub_diag. apply app_nil_r. Qed.

Lemma tab_none f t : tab f 0 t = repeat d t.
Proof. unfold tab. rewrite Nat.sub_0_r. reflexivity. Qed.

Lemma tab_ext f g n t : (forall k, k < n -> f k = g k) -> tab f n t = tab g n t.
Proof.
  intros H. apply nth_error_ext. intros i. rewrite !tab_nth_error.
  destruct (Nat.ltb_spec i n); [rewrite H by lia|]; reflexivity.
Qed.

(** ** Matrices, as the list of their cells *)

Definition flat (f : nat -> nat -> A) (w : nat) : nat -> A := fun c => f (c / w) (c mod w).

(** The first [r] of [h] rows have been computed. *)
Definition rows (f : nat -> nat -> A) (w r h : nat) : list A := tab (flat f w) (r * w) (h * w).

Lemma flat_cell f w i j : j < w -> flat f w (i * w + j) = f i j.
Proof.
  intros H. unfold flat. rewrite Nat.div_add_l, Nat.div_small by lia. rewrite Nat.add_0_r.
  rewrite Nat.add_comm, Nat.mod_add, Nat.mod_small by lia. reflexivity.
Qed.

Lemma rows_length f w r h : r <= h -> length (rows f w r h) = h * w.
Proof. intros. apply tab_length. apply Nat.mul_le_mono_r. exact H. Qed.

Lemma rows_slice_done f w r h i :
  i < r -> r <= h -> slice (rows f w r h) (i * w) (i * w + w) = Ok (tab (f i) w w).
Proof.
  intros H1 H2. assert (Hb : i * w + w <= h * w).
  { replace (i * w + w) with (S i * w) by lia. apply Nat.mul_le_mono_r. lia. }
  rewrite slice_ok by (rewrite ?rows_length; lia). f_equal.
  replace (i * w + w - i * w) with w by lia.
  apply nth_error_ext. intros k. rewrite nth_error_firstn, nth_error_skipn. unfold rows.
  rewrite !tab_nth_error. destruct (Nat.ltb_spec k w) as [Hk|]; [|reflexivity].
  destruct (Nat.ltb_spec (i * w + k) (r * w)) as [|Hge].
  - rewrite flat_cell by assumption. reflexivity.
  - exfalso. assert (S i * w <= r * w) by (apply Nat.mul_le_mono_r; lia). lia.
Qed.

Lemma rows_slice_new f w r h :
  r < h -> slice (rows f w r h) (r * w) (r * w + w) = Ok (tab (f r) 0 w).
Proof.
  intros H2. assert (Hb : r * w + w <= h * w).
  { replace (r * w + w) with (S r * w) by lia. apply Nat.mul_le_mono_r. lia. }
  rewrite slice_ok by (rewrite ?rows_length; lia). f_equal.
  replace (r * w + w - r * w) with w by lia.
  apply nth_error_ext. intros k. rewrite nth_error_firstn, nth_error_skipn. unfold rows.
  rewrite !tab_nth_error. destruct (Nat.ltb_spec k w) as [Hk|].
  - destruct (Nat.ltb_spec (r * w + k) (r * w)); [lia|].
    destruct (Nat.ltb_spec (r * w + k) (h * w)); [|lia]. reflexivity.
  - reflexivity.
Qed.

Lemma rows_put f w r h :
  r < h ->
  firstn (r * w) (rows f w r h) ++ tab (f r) w w ++ skipn (r * w + w) (rows f w r h)
  = rows f w (S r) h.
Proof.
  intros H2. assert (Hb : r * w + w <= h * w).
  { replace (r * w + w) with (S r * w) by lia. apply Nat.mul_le_mono_r. lia. }
  apply nth_error_ext. intros k.
  assert (Hl1 : length (firstn (r * w) (rows f w r h)) = r * w)
    by (rewrite firstn_length, rows_length; lia).
  assert (Hl2 : length (tab (f r) w w) = w) by (apply tab_length; lia).
  destruct (Nat.lt_ge_cases k (r * w)) as [K1|K1].
  - rewrite nth_error_app1 by lia. rewrite nth_error_firstn. unfold rows. rewrite !tab_nth_error.
    destruct (Nat.ltb_spec k (r * w)); [|lia]. destruct (Nat.ltb_spec k (S r * w)); [reflexivity|lia].
  - rewrite nth_error_app2 by lia. rewrite Hl1.
    destruct (Nat.lt_ge_cases k (r * w + w)) as [K2|K2].
    + rewrite nth_error_app1 by lia. unfold rows. rewrite !tab_nth_error.
      destruct (Nat.ltb_spec (k - r * w) w); [|lia]. destruct (Nat.ltb_spec k (S r * w)); [|lia].
      rewrite <- (flat_cell f w r (k - r * w)) by assumption. do 2 f_equal. lia.
    + rewrite nth_error_app2 by lia. rewrite Hl2, nth_error_skipn. unfold rows. rewrite !tab_nth_error.
      replace (r * w + w + (k - r * w - w)) with k by lia.
      destruct (Nat.ltb_spec k (r * w)); [lia|]. destruct (Nat.ltb_spec k (S r * w)); [lia|]. reflexivity.
Qed.

Lemma row_mut_new f w h :
  0 < h -> row_mut (MkMatrix (rows f w 0 h) h w) 0 = Ok (tab (f 0) 0 w).
Proof. intros. unfold row_mut. cbn [m_slice m_width]. apply rows_slice_new. exact H. Qed.

Lemma put_row_rows f w r h :
  r < h ->
  put_row (MkMatrix (rows f w r h) h w) r (tab (f r) w w) = MkMatrix (rows f w (S r) h) h w.
Proof.
  intros H. unfold put_row. cbn [m_slice m_width m_height]. rewrite tab_length by lia. f_equal.
  apply rows_put. exact H.
Qed.

Lemma two_rows_mut_rows f w r h :
  0 < r < h ->
  two_rows_mut (MkMatrix (rows f w r h) h w) (r - 1) r
  = Ok (tab (f (r - 1)) w w, tab (f r) 0 w).
Proof.
  intros H. unfold two_rows_mut. cbn [m_slice m_width].
  destruct (Nat.ltb_spec (r - 1) r); [|lia]. cbn [assert_ bind].
  assert (Hb : r * w + w <= h * w).
  { replace (r * w + w) with (S r * w) by lia. apply Nat.mul_le_mono_r. lia. }
  assert (Hr : (r - 1) * w + w = r * w).
  { replace r with (S (r - 1)) at 2 by lia. lia. }
  rewrite slice_to_ok by (rewrite rows_length; lia). cbn [bind].
  rewrite slice_from_ok by (rewrite rows_length; lia). cbn [bind].
  assert (E1 : slice (firstn (r * w) (rows f w r h)) ((r - 1) * w) ((r - 1) * w + w)
               = slice (rows f w r h) ((r - 1) * w) ((r - 1) * w + w)).
  { rewrite !slice_ok by (rewrite ?firstn_length, ?rows_length; lia). f_equal.
    rewrite Hr, skipn_firstn_comm, firstn_firstn, Nat.min_id. reflexivity. }
  rewrite E1, rows_slice_done by lia. cbn [bind].
  rewrite slice_to_ok by (rewrite skipn_length, rows_length; lia). cbn [bind].
  assert (E2 : slice (rows f w r h) (r * w) (r * w + w) = Ok (firstn w (skipn (r * w) (rows f w r h)))).
  { rewrite slice_ok by (rewrite ?rows_length; lia). do 2 f_equal. lia. }
  rewrite rows_slice_new in E2 by lia. injection E2 as <-. reflexivity.
Qed.

Lemma m_index_rows f w h i j :
  i < h -> j < w -> m_index (MkMatrix (rows f w h h) h w) (i * w + j) = Ok (f i j).
Proof.
  intros Hi Hj. unfold m_index. cbn [m_slice]. unfold rows. rewrite tab_idx.
  - rewrite flat_cell by assumption. reflexivity.
  - assert (S i * w <= h * w) by (apply Nat.mul_le_mono_r; lia). lia.
Qed.

Lemma m_get_value_rows f w h c :
  m_get_value (MkMatrix (rows f w h h) h w) c = if c <? h * w then Some (flat f w c) else None.
Proof.
  unfold m_get_value. cbn [m_slice]. unfold rows. rewrite tab_nth_error. destruct (c <? h * w); reflexivity.
Qed.

Lemma map_const (l : list A) : map (fun _ => d) l = repeat d (length l).
Proof. induction l; simpl; congruence. Qed.

Lemma matrix_alloc_spec vec w h f :
  0 < h -> 0 < w ->
  exists vec', matrix_alloc d vec w h = Ok (MkMatrix (rows f w 0 h) h w, vec')
    /\ length vec' = Nat.max (length vec) (h * w).
Proof.
  intros Hh Hw. unfold matrix_alloc.
  assert (Hhw : 0 < h * w) by (apply Nat.mul_pos_pos; lia).
  destruct (Nat.ltb_spec 0 (h * w)); [|lia]. cbn [assert_ bind].
  set (v := if _ <? _ then _ else _).
  assert (Hv : h * w <= length v).
  { unfold v. destruct (Nat.ltb_spec (length vec) (h * w)); [|lia].
    unfold grow. rewrite app_length, repeat_length. lia. }
  rewrite slice_to_ok by assumption. cbn [bind]. eexists. split.
  - repeat f_equal. rewrite map_const, firstn_length. unfold rows. simpl. rewrite tab_none. f_equal. lia.
  - unfold put_back. rewrite app_length, skipn_length, map_length, firstn_length. unfold v in *.
    destruct (Nat.ltb_spec (length vec) (h * w)); [|lia]. unfold grow. rewrite app_length, repeat_length. lia.
Qed.

End Tab.
