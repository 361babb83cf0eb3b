(** [normalize] looks up the tables, and [char_eq] is the specified agreement. *)
From Verif Require Import Prelude Chars Normalize Utils Spec PreludeProofs.
Local Open Scope N_scope.

Definition below (n : N) : list N := map N.of_nat (List.seq 0 (N.to_nat n)).

Lemma below_in n c : c < n -> In c (below n).
Proof.
  intros H. unfold below. apply in_map_iff. exists (N.to_nat c).
  split; [lia|]. apply in_seq. lia.
Qed.

(** 8581 is past the last table entry, U+2184. *)
Lemma table_codes :
  forallb (fun e => (fst e <? 8581) && (127 <? fst e)
                    && is_ascii_alphabetic (snd e))
    (first_batch ++ second_batch ++ third_batch) = true.
Proof. vm_compute. reflexivity. Qed.

Lemma table_code e : In e (first_batch ++ second_batch ++ third_batch) ->
  fst e < 8581 /\ 127 < fst e /\ is_ascii_alphabetic (snd e) = true.
Proof.
  intros H. pose proof table_codes as T. rewrite forallb_forall in T. apply T in H.
  rewrite !andb_true_iff in H. destruct H as [[H1 H2] H3].
  apply N.ltb_lt in H1, H2. auto.
Qed.

Lemma normal_form_cases c :
  normal_form c = c \/ (127 < c < 8581 /\ is_ascii_alphabetic (normal_form c) = true).
Proof.
  unfold normal_form. destruct (find _ _) as [e|] eqn:E; [right|left; reflexivity].
  apply find_some in E. destruct E as [E1 E2]. apply table_code in E1.
  destruct E1 as (? & ? & ?). apply N.eqb_eq in E2. rewrite <- E2. auto.
Qed.

Lemma normalize_below :
  forallb (fun c => (normalize c =? normal_form c)
                    && (negb (is_normalized c) || (normal_form c =? c)))
    (below 8581) = true.
Proof. vm_compute. reflexivity. Qed.

Lemma bounds : 127 < FIRST_START /\ FIRST_END < SECOND_START /\ SECOND_END < THIRD_START
               /\ THIRD_END < 8581 /\ FIRST_START <= FIRST_END /\ SECOND_START <= SECOND_END
               /\ THIRD_START <= THIRD_END.
Proof. vm_compute. repeat split; congruence. Qed.

Lemma is_normalized_false c : is_normalized c = false -> 127 < c < 8581.
Proof. pose proof bounds. unfold is_normalized. intros. lia. Qed.

Lemma normalize_normal_form c : normalize c = normal_form c.
Proof.
  destruct (N.lt_ge_cases c 8581) as [H|H].
  - pose proof normalize_below as T. rewrite forallb_forall in T.
    specialize (T c (below_in _ _ H)). lia.
  - destruct (normal_form_cases c) as [->|?]; [|lia].
    unfold normalize. destruct (is_normalized c) eqn:E; [reflexivity|].
    apply is_normalized_false in E. lia.
Qed.

Lemma normalized_fixed c : is_normalized c = true -> normal_form c = c.
Proof.
  intros E. destruct (N.lt_ge_cases c 8581) as [H|H].
  - pose proof normalize_below as T. rewrite forallb_forall in T.
    specialize (T c (below_in _ _ H)). rewrite E in T. simpl in T. lia.
  - destruct (normal_form_cases c) as [->|?]; [reflexivity|lia].
Qed.

(** The three array accesses of normalize are in bounds. *)
Lemma normalize_index_in_bounds c :
  is_normalized c = false ->
  (c <= FIRST_END -> (N.to_nat (c - FIRST_START) < length first_linearized)%nat)
  /\ (FIRST_END < c <= SECOND_END ->
      (N.to_nat (c - SECOND_START) < length second_linearized)%nat)
  /\ (SECOND_END < c -> (N.to_nat (c - THIRD_START) < length third_linearized)%nat).
Proof.
  intros H. unfold is_normalized in H.
  assert (L1 : N.of_nat (length first_linearized) = FIRST_END - FIRST_START + 1)
    by (vm_compute; reflexivity).
  assert (L2 : N.of_nat (length second_linearized) = SECOND_END - SECOND_START + 1)
    by (vm_compute; reflexivity).
  assert (L3 : N.of_nat (length third_linearized) = THIRD_END - THIRD_START + 1)
    by (vm_compute; reflexivity).
  pose proof bounds. repeat split; lia.
Qed.

Lemma normal_form_ascii c : c < 128 -> normal_form c = c.
Proof. intros. destruct (normal_form_cases c) as [->|?]; [reflexivity|lia]. Qed.

Lemma normal_form_idempotent c : normal_form (normal_form c) = normal_form c.
Proof.
  destruct (normal_form_cases c) as [E|[_ H]]; [rewrite E; exact E|].
  apply normal_form_ascii. unfold is_ascii_alphabetic, is_ascii_lowercase, is_ascii_uppercase in H.
  lia.
Qed.

Lemma fold_case_eq c : to_ascii_lowercase c = fold_case c.
Proof. reflexivity. Qed.

Lemma fold_case_high c : 127 < c -> fold_case c = c.
Proof. unfold fold_case. intros. destruct (_ && _) eqn:E; [lia|reflexivity]. Qed.

Lemma fold_case_low c : c <= 127 -> fold_case c <= 127.
Proof. unfold fold_case. intros. destruct (_ && _) eqn:E; lia. Qed.

Lemma fold_case_high_inv q c : 127 < c -> fold_case q = c -> q = c.
Proof. unfold fold_case. intros. destruct (_ && _) eqn:E; lia. Qed.

(** Boolean version of [same_char]. *)
Definition same_charb (sensitive : bool) (a b : char) : bool :=
  if sensitive then a =? b else fold_case a =? fold_case b.

Lemma same_charb_iff s a b : same_charb s a b = true <-> same_char s a b.
Proof. unfold same_charb, same_char. destruct s; apply N.eqb_eq. Qed.

Lemma same_char_high s q c : 127 < c -> same_char s q c -> q = c.
Proof.
  unfold same_char. destruct s; [auto|]. intros H. rewrite (fold_case_high c) by lia.
  apply fold_case_high_inv. exact H.
Qed.

Lemma same_char_low s q c : c <= 127 -> same_char s q c -> q <= 127.
Proof.
  unfold same_char. destruct s; [lia|]. intros H E.
  destruct (N.le_gt_cases q 127); [assumption|].
  rewrite (fold_case_high q) in E by lia. pose proof (fold_case_low c H). lia.
Qed.

Lemma char_eq_same s q c :
  char_eq s false q c = same_charb s q c.
Proof. destruct s; reflexivity. Qed.

Lemma char_eq_norm s q c :
  char_eq s true q c = same_charb s q (if is_normalized q then normal_form c else c).
Proof.
  destruct s; simpl; unfold case_sensitive_normalized_eq, case_insensitive_normalized_eq,
    normalize_candidate_char; rewrite normalize_normal_form; reflexivity.
Qed.

Lemma char_eq_agrees s n q c : char_eq s n q c = true <-> agrees s n q c.
Proof.
  destruct n.
  - rewrite char_eq_norm, same_charb_iff. unfold agrees. destruct (is_normalized q) eqn:E.
    + split; [auto|]. intros [H|[_ H]]; [|exact H].
      destruct (is_normalized c) eqn:Ec.
      * rewrite normalized_fixed; auto.
      * apply is_normalized_false in Ec as ?.
        apply same_char_high in H; [|lia]. congruence.
    + split; [auto|]. intros [H|[_ H]]; [exact H|].
      destruct (normal_form_cases c) as [Ec|[_ Ha]]; [rewrite Ec in H; exact H|].
      apply is_normalized_false in E.
      apply same_char_low in H; [lia|].
      unfold is_ascii_alphabetic, is_ascii_lowercase, is_ascii_uppercase in Ha. lia.
  - rewrite char_eq_same, same_charb_iff. unfold agrees. split; [auto|].
    intros [H|[? _]]; [exact H|discriminate].
Qed.

(** ASCII candidate characters. *)
Lemma char_eq_ascii s n q c : c < 128 -> char_eq s n q c = same_charb s q c.
Proof.
  intros H. destruct n; [|apply char_eq_same]. rewrite char_eq_norm.
  rewrite normal_form_ascii by exact H. destruct (is_normalized q); reflexivity.
Qed.

Lemma agrees_space_l s n c : agrees s n SPACE c <-> c = SPACE.
Proof.
  unfold agrees. split; [|intros ->; left; unfold same_char; destruct s; reflexivity].
  assert (same_char s SPACE c -> c = SPACE).
  { unfold same_char, SPACE, fold_case. destruct s; [auto|]. simpl.
    destruct (_ && _) eqn:E; lia. }
  intros [H'|[_ H']]; [auto|].
  destruct (normal_form_cases c) as [Ec|[_ Ha]]; [rewrite Ec in H'; auto|].
  exfalso. unfold is_ascii_alphabetic, is_ascii_lowercase, is_ascii_uppercase in Ha.
  unfold same_char, SPACE, fold_case in H'. destruct s; [lia|]. simpl in H'.
  destruct (_ && _) eqn:E in H'; lia.
Qed.

Lemma agrees_space_r s n q : agrees s n q SPACE <-> q = SPACE.
Proof.
  unfold agrees. rewrite normal_form_ascii by (vm_compute; reflexivity).
  assert (same_char s q SPACE <-> q = SPACE).
  { unfold same_char, SPACE, fold_case. destruct s; [reflexivity|]. simpl.
    destruct (_ && _) eqn:E; lia. }
  split; [intros [?|[_ ?]]; tauto|tauto].
Qed.
