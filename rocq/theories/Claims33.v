(** Proofs of C100: the letters which stand for accented letters, compared with Unicode. *)
From Verif Require Import Prelude Chars Normalize Utils Candidate MatchedRanges Query Parser Scoring
  Slab Fzf FzfV1 FzfV2 Api History
  Spec NormalizeProofs AcceptProofs Claims2 Claims3 Claims4 UnicodeLetters.
Local Open Scope N_scope.

(** ** The tables *)

Fixpoint list_beq {A} (eqb : A -> A -> bool) (l l' : list A) : bool :=
  match l, l' with
  | [], [] => true
  | x :: l, x' :: l' => eqb x x' && list_beq eqb l l'
  | _, _ => false
  end.

Lemma listed c x marks :
  existsb (fun e => let '(c', x', marks') := e in (c' =? c) && (x' =? x) && list_beq N.eqb marks' marks) decompositions = true ->
  In (c, x, marks) decompositions.
Proof.
  intros H. apply existsb_exists in H as ([[c' x'] marks'] & Hi & H). apply andb_prop in H as [H H3]. apply andb_prop in H as [H1 H2].
  apply N.eqb_eq in H1, H2. subst. replace marks with marks'; [exact Hi|]. clear Hi. revert marks H3.
  induction marks' as [|y l IH]; intros [|y' l'] H; cbn in H; try discriminate; [reflexivity|].
  apply andb_prop in H as [H1 H2]. apply N.eqb_eq in H1. subst. f_equal. auto.
Qed.

Lemma named c y : existsb (fun e => (fst e =? c) && (snd e =? y)) letter_names = true -> In (c, y) letter_names.
Proof.
  intros H. apply existsb_exists in H as ([c' y'] & Hi & H). apply andb_prop in H as [H1 H2]. cbn in *.
  apply N.eqb_eq in H1, H2. subst. exact Hi.
Qed.

Lemma plain_entry c x marks : In (c, x, marks) decompositions -> ascii_letter x /\ 127 < c.
Proof.
  assert (K : forallb (fun e => let '(c, x, _) := e in
    ((65 <=? x) && (x <=? 90) || (97 <=? x) && (x <=? 122)) && (127 <? c)) decompositions = true)
    by (vm_compute; reflexivity).
  rewrite forallb_forall in K. intros H. specialize (K _ H). cbv beta iota in K. unfold ascii_letter.
  apply andb_prop in K as [K1 K2]. apply N.ltb_lt in K2. split; [|exact K2].
  apply Bool.orb_true_iff in K1 as [K|K]; apply andb_prop in K as [K3 K4]; apply N.leb_le in K3, K4; lia.
Qed.

Definition handledb (e : N * N * list N) : bool :=
  let '(c, x, marks) := e in
  match marks with
  | [_] => small x || (c <? 256) || (c =? 304) || (c =? 376)
  | _ => (7840 <=? c) && (c <=? 7921)
  end.

Lemma handledb_iff c x marks : handledb (c, x, marks) = true <-> handled c x marks.
Proof.
  unfold handledb, handled. destruct marks as [|k [|]];
    rewrite ?Bool.orb_true_iff, ?andb_true_iff, ?N.leb_le, ?N.ltb_lt, ?N.eqb_eq; tauto.
Qed.

(** A letter which is not handled is left unchanged. *)
Lemma entry_form c x marks : In (c, x, marks) decompositions ->
  normal_form c = x /\ handled c x marks \/ normal_form c = c /\ ~ handled c x marks.
Proof.
  assert (K : forallb (fun e => let '(c, x, _) := e in
    if handledb e then normal_form c =? x else normal_form c =? c) decompositions = true)
    by (vm_compute; reflexivity).
  rewrite forallb_forall in K. intros H. specialize (K _ H). cbv beta iota in K.
  rewrite <- handledb_iff. destruct (handledb (c, x, marks)); apply N.eqb_eq in K; [left|right]; split; auto; discriminate.
Qed.

Lemma named_form c : normal_form c <> c -> In (c, normal_form c) letter_names.
Proof.
  assert (K : forallb (fun e => existsb (fun n => (fst n =? fst e) && (snd n =? snd e)) letter_names)
    (first_batch ++ second_batch ++ third_batch) = true) by (vm_compute; reflexivity).
  rewrite forallb_forall in K. unfold normal_form.
  destruct (List.find _ _) as [e|] eqn:E; [|congruence]. intros _. apply find_some in E as [E1 E2].
  apply N.eqb_eq in E2. specialize (K _ E1). apply existsb_exists in K as (n & Hn & Hb).
  apply andb_prop in Hb as [B1 B2]. apply N.eqb_eq in B1, B2. destruct n, e. cbn in *. subst. exact Hn.
Qed.

Lemma fold_letter x c : ascii_letter x -> 127 < c -> fold_case x <> fold_case c.
Proof.
  unfold ascii_letter, fold_case. intros Hx Hc.
  destruct ((65 <=? x) && (x <=? 90)) eqn:A, ((65 <=? c) && (c <=? 90)) eqn:B;
    rewrite ?andb_true_iff, ?N.leb_le in A, B; lia.
Qed.

Lemma no_same b x c : ascii_letter x -> 127 < c -> ~ same_char b x c.
Proof.
  intros Hx Hc. pose proof (fold_letter x c Hx Hc) as K. unfold same_char. destruct b; congruence.
Qed.

(** ** A query of one letter *)

Lemma letter_parsed x : ascii_letter x -> parse_spec [x] = [[Term false KFuzzy [x]]].
Proof.
  intros H.
  assert (K : In x (map N.of_nat (seq 65 26 ++ seq 97 26))).
  { rewrite <- (N2Nat.id x). apply in_map. apply in_or_app. unfold ascii_letter in H.
    destruct H; [left|right]; apply in_seq; lia. }
  cbn in K. repeat (destruct K as [<-|K]; [vm_compute; reflexivity|]). destruct K.
Qed.

Section WithUnicode.
Context {UC : unicode}.

Lemma letter_accepts a o m ps x cand : metric_reached a o m -> ascii_letter x ->
  (accepts (find ps m [x] cand) <-> fuzzy_in (agreement o [x]) [x] cand).
Proof.
  intros Hm Hx. rewrite (c27_accepts a o) by
    first [exact Hm | rewrite (letter_parsed x Hx); split;
     [intros [t Ht]; discriminate|repeat constructor; intros [E _]; discriminate]].
  rewrite (letter_parsed x Hx). unfold cnf_accepts, agreement. split.
  - intros H. inversion H as [|? ? H1 _]; subst. inversion H1 as [? ? H2|? ? H2]; subst; [exact H2|inversion H2].
  - intros H. constructor; [|constructor]. constructor. exact H.
Qed.

Lemma in_middle (R : char -> char -> Prop) x c (pre post : str) : R x c -> fuzzy_in R [x] (pre ++ c :: post).
Proof.
  intros H. exists [length pre]. split; [repeat constructor|]. constructor; [|constructor].
  exists c. split; [|exact H]. rewrite nth_error_app2 by lia. now rewrite Nat.sub_diag.
Qed.

Lemma c100_handled : forall a o m ps c x marks pre post,
  metric_reached a o m -> opt_norm o = true -> In (c, x, marks) decompositions -> handled c x marks ->
  accepts (find ps m [x] (pre ++ c :: post)).
Proof.
  intros a o m ps c x marks pre post Hm Hn Hi Hh. destruct (plain_entry _ _ _ Hi) as [Hx _].
  apply (letter_accepts a o); try assumption. apply in_middle. unfold agreement, agrees. right. split; [exact Hn|].
  destruct (entry_form _ _ _ Hi) as [[-> _]|[_ K]]; [|contradiction]. unfold same_char. now destruct (sensitive_for _ _).
Qed.

Lemma c100_exact : forall a o m ps c x marks,
  metric_reached a o m -> In (c, x, marks) decompositions ->
  (accepts (find ps m [x] [c]) <-> opt_norm o = true /\ handled c x marks).
Proof.
  intros a o m ps c x marks Hm Hi. destruct (plain_entry _ _ _ Hi) as [Hx Hc]. split.
  - intros H. apply (letter_accepts a o) in H; [|assumption..]. apply (proj1 (one_in _ _ _)) in H.
    unfold agreement, agrees in H. destruct H as [H|[Hn H]]; [exfalso; revert H; now apply no_same|].
    split; [exact Hn|]. destruct (entry_form _ _ _ Hi) as [[_ K]|[K _]]; [exact K|].
    rewrite K in H. exfalso. revert H. now apply no_same.
  - intros [Hn Hh]. exact (c100_handled a o m ps c x marks [] [] Hm Hn Hi Hh).
Qed.

Lemma c100_sound : forall a o m ps c x,
  metric_reached a o m -> ascii_letter x -> accepts (find ps m [x] [c]) ->
  same_char false x c \/ opt_norm o = true /\ exists y, In (c, y) letter_names /\ same_char false x y.
Proof.
  intros a o m ps c x Hm Hx H. apply (letter_accepts a o) in H; [|assumption..]. apply (proj1 (one_in _ _ _)) in H.
  unfold agreement, agrees in H.
  assert (W : forall b y, same_char b x y -> same_char false x y) by (intros [] y; cbn; congruence).
  destruct H as [H|[Hn H]]; [left; eauto|]. apply W in H.
  destruct (N.eq_dec (normal_form c) c) as [E|E]; [left; now rewrite E in H|].
  right. split; [exact Hn|]. exists (normal_form c). split; [now apply named_form|exact H].
Qed.

End WithUnicode.
