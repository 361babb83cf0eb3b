(** UTF-8 facts. *)
From Verif Require Import Prelude Chars PreludeProofs.
Local Open Scope N_scope.
Ltac Zify.zify_post_hook ::= Z.div_mod_to_equations.

Lemma encode_char_length c : length (encode_char c) = len_utf8 c.
Proof. unfold encode_char, len_utf8. repeat destruct (_ <? _); reflexivity. Qed.

Lemma encode_length s : length (encode s) = byte_len s.
Proof.
  induction s as [|c s IH]; [reflexivity|].
  unfold encode in *. simpl. rewrite app_length, encode_char_length, IH. reflexivity.
Qed.

Lemma encode_app a b : encode (a ++ b) = encode a ++ encode b.
Proof. unfold encode. apply flat_map_app. Qed.

Lemma encode_cons c s : encode (c :: s) = encode_char c ++ encode s.
Proof. reflexivity. Qed.

Lemma byte_len_app a b : byte_len (a ++ b) = (byte_len a + byte_len b)%nat.
Proof. rewrite <- !encode_length, encode_app, app_length. reflexivity. Qed.

Lemma byte_len_cons c s : byte_len (c :: s) = (len_utf8 c + byte_len s)%nat.
Proof. reflexivity. Qed.

Lemma len_utf8_pos c : (1 <= len_utf8 c)%nat.
Proof. unfold len_utf8. repeat destruct (_ <? _); lia. Qed.

Lemma length_le_byte_len s : (length s <= byte_len s)%nat.
Proof.
  induction s as [|c s IH]; [simpl; lia|]. rewrite byte_len_cons. simpl.
  pose proof (len_utf8_pos c). lia.
Qed.

Lemma decode_encode_char c s : decode (encode_char c ++ s) = c :: decode s.
Proof.
  unfold encode_char.
  destruct (N.ltb_spec c 128).
  { simpl. destruct (N.ltb_spec c 128); [reflexivity|lia]. }
  destruct (N.ltb_spec c 2048).
  { cbn [app decode].
    destruct (N.ltb_spec (192 + c / 64) 128); [lia|].
    destruct (N.ltb_spec (192 + c / 64) 224); [|lia].
    f_equal. lia. }
  destruct (N.ltb_spec c 65536).
  { cbn [app decode].
    destruct (N.ltb_spec (224 + c / 4096) 128); [lia|].
    destruct (N.ltb_spec (224 + c / 4096) 224); [lia|].
    destruct (N.ltb_spec (224 + c / 4096) 240); [|lia].
    f_equal. lia. }
  cbn [app decode].
  destruct (N.ltb_spec (240 + c / 262144) 128); [lia|].
  destruct (N.ltb_spec (240 + c / 262144) 224); [lia|].
  destruct (N.ltb_spec (240 + c / 262144) 240); [lia|].
  f_equal. lia.
Qed.

Lemma decode_encode s : decode (encode s) = s.
Proof.
  induction s as [|c s IH]; [reflexivity|].
  rewrite encode_cons, decode_encode_char, IH. reflexivity.
Qed.

Lemma encode_char_nonempty c : encode_char c <> [].
Proof. intros H. apply (f_equal (@length N)) in H. rewrite encode_char_length in H.
  pose proof (len_utf8_pos c). simpl in H. lia. Qed.

Lemma encode_nil_iff s : encode s = [] <-> s = [].
Proof.
  split; [|intros ->; reflexivity]. destruct s as [|c s]; [reflexivity|].
  rewrite encode_cons. intros H. apply app_eq_nil in H. destruct H as [H _].
  apply encode_char_nonempty in H. contradiction.
Qed.

(** The first byte of a character is never a continuation byte. *)
Lemma encode_char_head c : exists b r, encode_char c = b :: r /\ is_continuation b = false.
Proof.
  unfold encode_char, is_continuation.
  destruct (N.ltb_spec c 128); [eexists _, _; split; [reflexivity|lia]|].
  destruct (N.ltb_spec c 2048); [eexists _, _; split; [reflexivity|lia]|].
  destruct (N.ltb_spec c 65536); eexists _, _; (split; [reflexivity|lia]).
Qed.

Lemma boundary_prefix a b : is_char_boundary (encode (a ++ b)) (byte_len a) = true.
Proof.
  unfold is_char_boundary. rewrite encode_app.
  rewrite nth_error_app2 by (rewrite encode_length; lia).
  rewrite encode_length, Nat.sub_diag.
  destruct b as [|c b]; simpl.
  - rewrite app_nil_r, encode_length. apply Nat.eqb_refl.
  - destruct (encode_char_head c) as (x & r & -> & H). simpl. rewrite H.
    apply orb_true_r.
Qed.

Lemma firstn_encode a b : firstn (byte_len a) (encode (a ++ b)) = encode a.
Proof.
  rewrite encode_app, <- encode_length, firstn_app, Nat.sub_diag, firstn_all, firstn_O, app_nil_r.
  reflexivity.
Qed.

Lemma skipn_encode a b : skipn (byte_len a) (encode (a ++ b)) = encode b.
Proof.
  rewrite encode_app, <- encode_length, skipn_app, Nat.sub_diag, skipn_all, skipn_O. reflexivity.
Qed.

Lemma str_to_encode a b : str_to (encode (a ++ b)) (byte_len a) = Ok (encode a).
Proof. unfold str_to. rewrite boundary_prefix, firstn_encode. reflexivity. Qed.

Lemma str_from_encode a b : str_from (encode (a ++ b)) (byte_len a) = Ok (encode b).
Proof. unfold str_from. rewrite boundary_prefix, skipn_encode. reflexivity. Qed.

(** Bytes below 128 occur only as ASCII characters. *)
Lemma encode_char_ascii c : c < 128 -> encode_char c = [c].
Proof. intros. unfold encode_char. destruct (N.ltb_spec c 128); [reflexivity|lia]. Qed.

Lemma encode_char_high c : 128 <= c -> Forall (fun b => 128 <= b) (encode_char c).
Proof.
  intros. unfold encode_char.
  destruct (N.ltb_spec c 128); [lia|].
  repeat destruct (_ <? _); repeat constructor; lia.
Qed.

Lemma encode_ascii s : forallb is_ascii s = true -> encode s = s.
Proof.
  induction s as [|c s IH]; [reflexivity|]. cbn [forallb]. rewrite andb_true_iff. intros [H1 H2].
  rewrite encode_cons, IH by auto. rewrite encode_char_ascii; [reflexivity|].
  unfold is_ascii in H1. lia.
Qed.

Lemma byte_len_ascii s : forallb is_ascii s = true -> byte_len s = length s.
Proof. intros H. rewrite <- encode_length, encode_ascii; auto. Qed.

Lemma byte_len_firstn_le s i j :
  (i <= j)%nat -> (byte_len (firstn i s) <= byte_len (firstn j s))%nat.
Proof.
  intros H. replace (firstn i s) with (firstn i (firstn j s)).
  - rewrite <- (firstn_skipn i (firstn j s)) at 2. rewrite byte_len_app. lia.
  - rewrite firstn_firstn. f_equal. lia.
Qed.

Lemma byte_len_firstn_S s i c :
  nth_error s i = Some c ->
  byte_len (firstn (S i) s) = (byte_len (firstn i s) + len_utf8 c)%nat.
Proof. intros H. rewrite (firstn_S_nth _ _ _ _ H), byte_len_app. simpl. lia. Qed.

Lemma byte_len_firstn_lt s i j :
  (i < j)%nat -> (i < length s)%nat -> (byte_len (firstn i s) < byte_len (firstn j s))%nat.
Proof.
  intros Hij Hi. destruct (nth_error s i) as [c|] eqn:E.
  - pose proof (byte_len_firstn_S _ _ _ E). pose proof (len_utf8_pos c).
    pose proof (byte_len_firstn_le s (S i) j Hij). lia.
  - apply nth_error_None in E. lia.
Qed.
