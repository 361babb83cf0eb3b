(** Searches which are alike: other Unicode tables, letters of another case, characters that
    compare alike. *)
From Coq Require Import Sorted.
From Verif Require Import Prelude Chars Normalize Utils Candidate MatchedRanges Query Parser Scoring
  Slab Fzf FzfV1 FzfV2 Api History
  Spec PreludeProofs CharsProofs NormalizeProofs CandidateProofs MatchedRangesProofs ParserProofs
  ScoreProofs ExactProofs ExactChoice ShapeProofs V1Proofs V2Tables V2Proofs V2Rows V2Fuzzy V2Facts ApiProofs CongProofs
  ParProofs Claims1 Claims2 Claims3 Claims6.
Local Open Scope nat_scope.

(** ** Parsing two strings side by side *)

Definition sigils : list char := [32; 92; 33; 39; 94; 36; 124]%N.

Section Parse.
Variable R : char -> char -> Prop.
Hypothesis HR : forall x x' k, R x x' -> In k sigils -> (x =? k)%N = (x' =? k)%N.

Local Notation R2 := (Forall2 R).

Inductive token_rel : token -> token -> Prop :=
| tr_lit x x' : R x x' -> token_rel (Lit x) (Lit x')
| tr_sep : token_rel Sep Sep.

Lemma tokens_rel s : forall s', R2 s s' -> Forall2 token_rel (tokens s) (tokens s').
Proof.
  remember (length s) as n eqn:En. revert s En. induction n as [n IH] using lt_wf_ind. intros s En s' F.
  destruct F as [|x x' s s' Hx F]; [constructor|]. cbn [tokens length] in *.
  rewrite (HR x x' 32 Hx) by (cbn; tauto). rewrite (HR x x' 92 Hx) by (cbn; tauto).
  destruct (x' =? 32)%N.
  - constructor; [constructor|]. apply (IH (length s)); [lia|reflexivity|exact F].
  - destruct F as [|y y' s s' Hy F]; [repeat constructor; exact Hx|].
    pose proof (HR y y' 32 Hy ltac:(cbn; tauto)) as E32. rewrite E32.
    destruct ((x' =? 92) && (y' =? 32))%N eqn:B.
    + apply andb_prop in B as [_ B]. rewrite B in E32. apply N.eqb_eq in B, E32. subst y y'.
      constructor; [constructor; exact Hy|]. apply (IH (length s)); [cbn in *; lia|reflexivity|exact F].
    + constructor; [constructor; exact Hx|]. apply (IH (length (y :: s))); [cbn in *; lia|reflexivity|constructor; assumption].
Qed.

Lemma split_rel l l' : Forall2 token_rel l l' -> Forall2 R2 (split l) (split l').
Proof.
  induction 1 as [|t t' l l' Ht F IH]; [repeat constructor|]. destruct Ht as [x x' Hx|]; cbn [split].
  - destruct IH; repeat constructor; auto.
  - constructor; [constructor|exact IH].
Qed.

Lemma nonempty_rel w w' : R2 w w' -> nonempty w = nonempty w'.
Proof. destruct 1; reflexivity. Qed.

Lemma words_rel s s' : R2 s s' -> Forall2 R2 (words_of s) (words_of s').
Proof.
  intros F. apply tokens_rel, split_rel in F. unfold words_of. induction F as [|w w' ws ws' H F IH]; [constructor|].
  cbn [filter]. rewrite (nonempty_rel w w' H). destruct (nonempty w'); [constructor; assumption|exact IH].
Qed.

Definition term_rel (t t' : term) : Prop := t_neg t = t_neg t' /\ t_kind t = t_kind t' /\ R2 (t_text t) (t_text t').

Lemma bang_rel w w' : R2 w w' -> fst (bang w) = fst (bang w') /\ R2 (snd (bang w)) (snd (bang w')).
Proof.
  destruct 1 as [|x x' w w' Hx F]; [split; constructor|]. cbn [bang]. rewrite (HR x x' 33 Hx) by (cbn; tauto).
  destruct (x' =? 33)%N; split; cbn [fst snd]; auto.
Qed.

Lemma open_rel w w' : R2 w w' -> fst (open_sigil w) = fst (open_sigil w') /\ R2 (snd (open_sigil w)) (snd (open_sigil w')).
Proof.
  destruct 1 as [|x x' w w' Hx F]; [split; constructor|]. cbn [open_sigil].
  rewrite (HR x x' 39 Hx) by (cbn; tauto). rewrite (HR x x' 94 Hx) by (cbn; tauto).
  destruct (x' =? 39)%N; [split; cbn [fst snd]; auto|]. destruct (x' =? 94)%N; split; cbn [fst snd]; auto.
Qed.

Lemma last_rel w w' : R2 w w' -> w <> [] -> R (last w 0%N) (last w' 0%N) /\ R2 (removelast w) (removelast w').
Proof.
  induction 1 as [|x x' w w' Hx F IH]; [congruence|]. intros _. destruct F as [|y y' w w' Hy F]; [cbn; auto|].
  destruct IH as [I1 I2]; [discriminate|]. cbn [last removelast] in *. split; [exact I1|]. constructor; [exact Hx|exact I2].
Qed.

Lemma dollar_rel w w' : R2 w w' -> fst (dollar w) = fst (dollar w') /\ R2 (snd (dollar w)) (snd (dollar w')).
Proof.
  intros F. destruct F as [|x x' w w' Hx F]; [split; constructor|]. destruct F as [|y y' w w' Hy F]; [split; repeat constructor; exact Hx|].
  destruct (last_rel (x :: y :: w) (x' :: y' :: w')) as [L1 L2]; [repeat constructor; assumption|discriminate|].
  cbn [dollar]. pose proof (HR _ _ 36%N L1 ltac:(cbn; tauto)) as E. rewrite E.
  destruct (last (x' :: y' :: w') 0 =? 36)%N; split; cbn [fst snd]; auto.
Qed.

Lemma term_of_rel w w' : R2 w w' ->
  match term_of w, term_of w' with Some t, Some t' => term_rel t t' | None, None => True | _, _ => False end.
Proof.
  intros F. unfold term_of. apply bang_rel in F as [E1 F]. destruct (bang w) as [neg w1], (bang w') as [neg' w1']. cbn [fst snd] in *. subst neg'.
  apply dollar_rel in F as [E2 F]. destruct (dollar w1) as [d w2], (dollar w1') as [d' w2']. cbn [fst snd] in *. subst d'.
  apply open_rel in F as [E3 F]. destruct (open_sigil w2) as [o w3], (open_sigil w2') as [o' w3']. cbn [fst snd] in *. subst o'.
  destruct F; [exact I|]. split; [reflexivity|]. split; [reflexivity|]. constructor; assumption.
Qed.

Lemma is_bar_rel w w' : R2 w w' -> is_bar w = is_bar w'.
Proof.
  destruct 1 as [|x x' w w' Hx F]; [reflexivity|]. destruct F; [|reflexivity]. cbn. apply HR; [exact Hx|cbn; tauto].
Qed.

Definition marked_rel (m m' : bool * term) : Prop := fst m = fst m' /\ term_rel (snd m) (snd m').

Lemma marked_terms_rel ws ws' : Forall2 R2 ws ws' -> forall b, Forall2 marked_rel (marked_terms b ws) (marked_terms b ws').
Proof.
  induction 1 as [|w w' ws ws' H F IH]; intros b; [constructor|]. cbn [marked_terms]. rewrite (is_bar_rel w w' H).
  destruct (is_bar w'); [apply IH|]. pose proof (term_of_rel w w' H) as T.
  destruct (term_of w), (term_of w'); try contradiction; [|apply IH]. constructor; [split; [reflexivity|exact T]|apply IH].
Qed.

Lemma join_bars_rel l l' : Forall2 marked_rel l l' -> Forall2 (Forall2 term_rel) (join_bars l) (join_bars l').
Proof.
  induction 1 as [|[b t] [b' t'] l l' [E T] F IH]; [constructor|]. cbn [fst snd] in *. cbn [join_bars].
  destruct F as [|[c u] [c' u'] l l' [E2 T2] F]; [repeat constructor; auto; apply T|]. cbn [fst snd] in *. subst c'.
  destruct c.
  - destruct IH as [|g g' gs gs' Hg Hgs]; [repeat constructor; exact T || apply T|]. constructor; [constructor; assumption|exact Hgs].
  - constructor; [constructor; [exact T|constructor]|exact IH].
Qed.

Lemma parse_rel s s' : R2 s s' -> Forall2 (Forall2 term_rel) (parse_spec s) (parse_spec s').
Proof. intros F. apply join_bars_rel, marked_terms_rel, words_rel, F. Qed.

End Parse.

Lemma Forall2_diag {A} (R : A -> A -> Prop) l : (forall x, In x l -> R x x) -> Forall2 R l l.
Proof. induction l as [|x l IH]; intros H; constructor; [apply H; left; reflexivity|]. apply IH. intros y Hy. apply H. right. exact Hy. Qed.

(** The characters of the terms are characters of the string. *)
Lemma parse_diag (P : char -> Prop) s : (forall x, In x s -> P x) ->
  Forall2 (Forall2 (term_rel (fun x x' => x = x' /\ P x))) (parse_spec s) (parse_spec s).
Proof.
  intros H. apply parse_rel; [intros x x' k [-> _] _; reflexivity|]. apply Forall2_diag. auto.
Qed.

Lemma Forall2_pairs_in {A B} (R : A -> B -> Prop) L : Forall2 R (one L) (two L) -> forall b, In b L -> R (fst b) (snd b).
Proof.
  induction L as [|x L IH]; intros F b Hb; [destruct Hb|]. inversion F; subst. destruct Hb as [<-|Hb]; auto.
Qed.

(** ** From characters to results *)

Lemma term_rel_par UC UC' o o' L (R : char -> char -> Prop) t t' :
  term_rel R t t' -> (forall x x', R x x' -> (x =? 32)%N = (x' =? 32)%N) ->
  (forall x x' b, R x x' -> In b L ->
     char_eq (@sensitive_for UC (opt_case o) (t_text t)) (opt_norm o) x (fst b)
     = char_eq (@sensitive_for UC' (opt_case o') (t_text t')) (opt_norm o') x' (snd b)) ->
  term_par UC UC' o o' L t t'.
Proof.
  intros (En & Ek & F) HS H. split; [exact En|]. split; [exact Ek|].
  destruct (Forall2_pairs _ _ _ F) as (P & E & E' & HP). exists P. split; [congruence|]. split; [congruence|]. split.
  - intros a Ha. apply HS, HP, Ha.
  - intros a b Ha Hb. apply H; [apply HP, Ha|exact Hb].
Qed.

Lemma rel_par UC UC' o o' L (R : char -> char -> Prop) q q' :
  Forall2 (Forall2 (term_rel R)) q q' -> (forall x x', R x x' -> (x =? 32)%N = (x' =? 32)%N) ->
  (forall t t' x x' b, term_rel R t t' -> R x x' -> In b L ->
     char_eq (@sensitive_for UC (opt_case o) (t_text t)) (opt_norm o) x (fst b)
     = char_eq (@sensitive_for UC' (opt_case o') (t_text t')) (opt_norm o') x' (snd b)) ->
  Forall2 (Forall2 (term_par UC UC' o o' L)) q q'.
Proof.
  intros F HS H. induction F as [|g g' q q' Hg F IH]; constructor; [|exact IH]. clear F IH.
  induction Hg as [|t t' g g' Ht F IH]; constructor; [|exact IH].
  apply (term_rel_par UC UC' o o' L R); [exact Ht|exact HS|]. intros x x' b. apply H, Ht.
Qed.

Lemma char_eq_iff s n s' n' x y x' y' :
  (agrees s n x y <-> agrees s' n' x' y') -> char_eq s n x y = char_eq s' n' x' y'.
Proof.
  intros H. destruct (char_eq s n x y) eqn:E, (char_eq s' n' x' y') eqn:E'; try reflexivity; exfalso.
  - apply char_eq_agrees, H, char_eq_agrees in E. congruence.
  - apply char_eq_agrees, H, char_eq_agrees in E'. congruence.
Qed.

Section Results.
Variables (UC UC' : unicode) (a : algo) (o o' : options) (m m' : metric) (L : pairs).
Hypotheses (Hm : @metric_reached UC a o m) (Hm' : @metric_reached UC' a o' m').
Hypothesis SL : spaces_par L.

Lemma find_par ps ps' s s' buf : opt_scheme o = opt_scheme o' -> places_par UC UC' (opt_scheme o) L ->
  Forall2 (Forall2 (term_par UC UC' o o' L)) (parse_spec s) (parse_spec s') ->
  @find UC ps m s (one L) = @find UC' ps' m' s' (two L)
  /\ (widths_par L -> @find_ranges UC ps m s (one L) buf = @find_ranges UC' ps' m' s' (two L) buf).
Proof.
  intros Hs HL F. apply metric_reached_options in Hm as Ho. apply metric_reached_options in Hm' as Ho'.
  rewrite (@find_spec UC a o), (@find_ranges_spec UC a o) by exact Ho.
  rewrite (@find_spec UC' a o'), (@find_ranges_spec UC' a o') by exact Ho'.
  destruct (outcome_par UC UC' a o o' L Hs SL HL (parse_spec s) (parse_spec s')) as [E W]; [apply parse_spec_ok|exact F|].
  split; [rewrite E; reflexivity|]. intros HW. rewrite E, (W HW). reflexivity.
Qed.

Lemma find_raw_par ps s s' buf : opt_scheme o = opt_scheme o' -> places_par UC UC' (opt_scheme o) L ->
  text_par UC UC' o o' L s s' ->
  @find_raw UC ps m s (one L) = @find_raw UC' ps m' s' (two L)
  /\ (widths_par L -> @find_ranges_raw UC ps m s (one L) buf = @find_ranges_raw UC' ps m' s' (two L) buf).
Proof.
  intros Hs HL F. apply metric_reached_options in Hm as Ho. apply metric_reached_options in Hm' as Ho'.
  rewrite (@find_raw_spec UC a o), (@find_ranges_raw_spec UC a o) by exact Ho.
  rewrite (@find_raw_spec UC' a o'), (@find_ranges_raw_spec UC' a o') by exact Ho'.
  destruct (raw_outcome_par UC UC' a o o' L Hs HL s s' F) as [E W].
  assert (El : length s = length s') by (destruct F as (P & -> & -> & _); rewrite !map_length; reflexivity).
  rewrite El. split; [rewrite E; reflexivity|]. intros HW. rewrite E, (W HW). reflexivity.
Qed.

Lemma accepts_par ps ps' s s' :
  Forall2 (Forall2 (term_par UC UC' o o' L)) (parse_spec s) (parse_spec s') ->
  accepts (@find UC ps m s (one L)) <-> accepts (@find UC' ps' m' s' (two L)).
Proof.
  intros F. apply metric_reached_options in Hm as Ho. apply metric_reached_options in Hm' as Ho'.
  rewrite (@find_spec UC a o) by exact Ho. rewrite (@find_spec UC' a o') by exact Ho'.
  pose proof (outcome_some_par UC UC' a o o' L SL (parse_spec s) (parse_spec s') (proj1 (parse_spec_ok s)) F) as E.
  unfold accepts. destruct (fst (@outcome UC a o (parse_spec s) (one L))), (fst (@outcome UC' a o' (parse_spec s') (two L)));
    cbn in *; try discriminate; split; intros [d Hd]; try discriminate; eauto.
Qed.

End Results.

(** ** Unicode tables *)

Definition diag (c : str) : pairs := map (fun x => (x, x)) c.

Lemma diag_one c : one (diag c) = c.
Proof. unfold diag. rewrite map_map. cbn. apply map_id. Qed.
Lemma diag_two c : two (diag c) = c.
Proof. unfold diag. rewrite map_map. cbn. apply map_id. Qed.
Lemma diag_in c b : In b (diag c) -> fst b = snd b /\ In (snd b) c.
Proof. unfold diag. intros H. apply in_map_iff in H as (x & <- & H). auto. Qed.

Lemma existsb_cong {A} (f g : A -> bool) l : (forall x, In x l -> f x = g x) -> existsb f l = existsb g l.
Proof.
  induction l as [|x l IH]; intros H; [reflexivity|]. cbn. rewrite (H x) by (left; reflexivity). f_equal.
  apply IH. intros y Hy. apply H. right. exact Hy.
Qed.

Lemma sensitive_same UC UC' cs text : (forall x, In x text -> @is_uppercase UC x = @is_uppercase UC' x) ->
  @sensitive_for UC cs text = @sensitive_for UC' cs text.
Proof. intros H. destruct cs; try reflexivity. cbn. apply existsb_cong, H. Qed.

Lemma Forall2_eq_and {A} (P : A -> Prop) l l' : Forall2 (fun x x' => x = x' /\ P x) l l' -> l = l' /\ forall x, In x l -> P x.
Proof.
  induction 1 as [|x x' l l' [-> Hx] F (-> & IH)]; [split; [reflexivity|intros x []]|]. split; [reflexivity|].
  intros y [<-|Hy]; auto.
Qed.

Lemma other_tables : forall UC UC' a o m m' ps ps' s c buf,
  @metric_reached UC a o m -> @metric_reached UC' a o m' ->
  (forall x, In x s -> @is_uppercase UC x = @is_uppercase UC' x) ->
  (forall y, In y c -> @place_of UC (opt_scheme o) y = @place_of UC' (opt_scheme o) y) ->
  @find UC ps m s c = @find UC' ps' m' s c
  /\ @find_ranges UC ps m s c buf = @find_ranges UC' ps' m' s c buf
  /\ @find_raw UC ps m s c = @find_raw UC' ps m' s c
  /\ @find_ranges_raw UC ps m s c buf = @find_ranges_raw UC' ps m' s c buf.
Proof.
  intros UC UC' a o m m' ps ps' s c buf Hm Hm' Hu Hp.
  assert (SL : spaces_par (diag c)) by (intros b Hb; apply diag_in in Hb as [-> _]; reflexivity).
  assert (HL : places_par UC UC' (opt_scheme o) (diag c)) by (intros b Hb; apply diag_in in Hb as [-> Hb]; apply Hp, Hb).
  assert (W : widths_par (diag c)) by (intros b Hb; apply diag_in in Hb as [-> _]; reflexivity).
  pose proof (find_par UC UC' a o o m m' (diag c) Hm Hm' SL ps ps' s s buf eq_refl HL) as F1.
  pose proof (find_raw_par UC UC' a o o m m' (diag c) Hm Hm' ps s s buf eq_refl HL) as F2.
  rewrite diag_one, diag_two in *. destruct F1 as [E1 E2].
  { apply (rel_par UC UC' o o (diag c) _ _ _ (parse_diag _ s Hu)); [intros x x' [-> _]; reflexivity|].
    intros t t' x x' b (_ & _ & T) [-> _] Hb. apply Forall2_eq_and in T as [<- T].
    rewrite (sensitive_same UC UC') by exact T. apply diag_in in Hb as [-> _]. reflexivity. }
  destruct F2 as [E3 E4].
  { exists (diag s). rewrite diag_one, diag_two. split; [reflexivity|]. split; [reflexivity|].
    split; [intros b Hb; apply diag_in in Hb as [-> _]; reflexivity|].
    intros x b Hx Hb. apply diag_in in Hx as [-> _], Hb as [-> _]. rewrite (sensitive_same UC UC') by exact Hu. reflexivity. }
  repeat split; auto.
Qed.

Lemma other_tables_ascii : forall UC UC' a o m m' ps ps' s c buf,
  @metric_reached UC a o m -> @metric_reached UC' a o m' ->
  (forall x, In x (s ++ c) -> (x < 128)%N) -> @cfg_windows UC = @cfg_windows UC' ->
  @find UC ps m s c = @find UC' ps' m' s c
  /\ @find_ranges UC ps m s c buf = @find_ranges UC' ps' m' s c buf
  /\ @find_raw UC ps m s c = @find_raw UC' ps m' s c
  /\ @find_ranges_raw UC ps m s c buf = @find_ranges_raw UC' ps m' s c buf.
Proof.
  intros UC UC' a o m m' ps ps' s c buf Hm Hm' Ha Hw. apply (other_tables UC UC' a o); auto.
  - intros x Hx. unfold is_uppercase, is_ascii. rewrite (proj2 (N.ltb_lt x 128)); [reflexivity|].
    apply Ha, in_or_app. left. exact Hx.
  - intros y Hy. unfold place_of. rewrite (proj2 (N.ltb_lt y 128)) by (apply Ha, in_or_app; right; exact Hy).
    unfold delimiters. rewrite Hw. reflexivity.
Qed.

(** ** Letters of another case *)

Section WithUnicode.
Context {UC : unicode}.

Lemma fold_sigil x x' k : same_char false x x' -> In k sigils -> (x =? k)%N = (x' =? k)%N.
Proof.
  intros H Hk. unfold same_char, fold_case in H.
  destruct ((65 <=? x) && (x <=? 90))%N eqn:E1, ((65 <=? x') && (x' <=? 90))%N eqn:E2;
    rewrite ?andb_true_iff, ?andb_false_iff, ?N.leb_le, ?N.leb_gt in *;
    destruct (N.eqb_spec x k), (N.eqb_spec x' k); try reflexivity; exfalso;
    cbn in Hk; intuition lia.
Qed.

Lemma fold_trans x x' y : same_char false x x' -> same_char false x y <-> same_char false x' y.
Proof. unfold same_char. intros ->. reflexivity. Qed.

Lemma query_case : forall a o m m' ps ps' s s' c buf,
  metric_reached a o m -> metric_reached a o m' -> opt_case o = Insensitive ->
  Forall2 (same_char false) s s' ->
  find ps m s c = find ps' m' s' c /\ find_ranges ps m s c buf = find_ranges ps' m' s' c buf
  /\ find_raw ps m s c = find_raw ps m' s' c /\ find_ranges_raw ps m s c buf = find_ranges_raw ps m' s' c buf.
Proof.
  intros a o m m' ps ps' s s' c buf Hm Hm' Hi F.
  assert (SL : spaces_par (diag c)) by (intros b Hb; apply diag_in in Hb as [-> _]; reflexivity).
  assert (HL : places_par UC UC (opt_scheme o) (diag c)) by (intros b Hb; apply diag_in in Hb as [-> Hb]; reflexivity).
  assert (W : widths_par (diag c)) by (intros b Hb; apply diag_in in Hb as [-> _]; reflexivity).
  assert (S32 : forall x x', same_char false x x' -> (x =? 32)%N = (x' =? 32)%N)
    by (intros x x' Hx; apply fold_sigil; [exact Hx|cbn; tauto]).
  assert (Q : forall t t' x x' b, same_char false x x' -> In b (diag c) ->
    char_eq (sensitive_for (opt_case o) t) (opt_norm o) x (fst b) = char_eq (sensitive_for (opt_case o) t') (opt_norm o) x' (snd b)).
  { intros t t' x x' b Hx Hb. apply diag_in in Hb as [-> _]. rewrite Hi. cbn [sensitive_for]. apply char_eq_iff. unfold agrees.
    rewrite !(fold_trans x x') by exact Hx. reflexivity. }
  pose proof (find_par UC UC a o o m m' (diag c) Hm Hm' SL ps ps' s s' buf eq_refl HL) as F1.
  pose proof (find_raw_par UC UC a o o m m' (diag c) Hm Hm' ps s s' buf eq_refl HL) as F2.
  rewrite diag_one, diag_two in *. destruct F1 as [E1 E2].
  { apply (rel_par UC UC o o (diag c) _ _ _ (parse_rel _ fold_sigil s s' F)); [exact S32|]. intros. apply Q; assumption. }
  destruct F2 as [E3 E4].
  { destruct (Forall2_pairs _ _ _ F) as (P & E & E' & HP). exists P. split; [congruence|]. split; [congruence|].
    split; [intros x Hx; apply S32, HP, Hx|]. intros x b Hx Hb. apply Q; [apply HP, Hx|exact Hb]. }
  repeat split; auto.
Qed.

Lemma existsb_none {A} (f : A -> bool) l : (forall x, In x l -> f x = false) -> existsb f l = false.
Proof.
  induction l as [|x l IH]; intros H; [reflexivity|]. cbn. rewrite (H x) by (left; reflexivity).
  apply IH. intros y Hy. apply H. right. exact Hy.
Qed.

Lemma case_ignored_text o text :
  (forall x, In x text -> opt_case o = Insensitive \/ (opt_case o = Smart /\ is_uppercase x = false)) -> text <> [] ->
  sensitive_for (opt_case o) text = false.
Proof.
  intros H Ht. destruct text as [|x text]; [congruence|]. destruct (opt_case o).
  - destruct (H x) as [E|[E _]]; [left; reflexivity|discriminate E..].
  - reflexivity.
  - apply existsb_none. intros y Hy. destruct (H y Hy) as [E|[_ E]]; [discriminate E|exact E].
Qed.

(** The general form: candidates whose characters agree with those of the query alike. *)
Lemma ignored_accepts a o m m' ps ps' s (L : pairs) :
  metric_reached a o m -> metric_reached a o m' -> case_ignored o s -> spaces_par L ->
  (forall x b, In x s -> In b L -> agrees false (opt_norm o) x (fst b) <-> agrees false (opt_norm o) x (snd b)) ->
  accepts (find ps m s (one L)) <-> accepts (find ps' m' s (two L)).
Proof.
  intros Hm Hm' Hi SL H. apply (accepts_par UC UC a o o m m' L Hm Hm' SL).
  set (P := fun x => (opt_case o = Insensitive \/ (opt_case o = Smart /\ is_uppercase x = false)) /\ In x s).
  assert (F : Forall2 (Forall2 (term_rel (fun x x' => x = x' /\ P x))) (parse_spec s) (parse_spec s)).
  { apply parse_diag. intros x Hx. split; [|exact Hx].
    destruct Hi as [E|[E1 E2]]; [left; exact E|right; split; [exact E1|apply E2, Hx]]. }
  apply (rel_par UC UC o o L _ _ _ F); [intros x x' [-> _]; reflexivity|].
  intros t t' x x' b (_ & _ & T) [-> [_ Hx]] Hb. apply Forall2_eq_and in T as [<- T].
  destruct (t_text t) as [|z text] eqn:Et.
  - (* no characters: the mode does not matter *)
    destruct (opt_case o) eqn:Eo.
    + exfalso. destruct Hi as [E|[E _]]; congruence.
    + apply char_eq_iff, H; assumption.
    + apply char_eq_iff, H; assumption.
  - rewrite case_ignored_text; [|intros y Hy; apply (T y Hy)|discriminate]. apply char_eq_iff, H; assumption.
Qed.

Lemma normal_form_fold y y' : same_char false y y' -> same_char false (normal_form y) (normal_form y').
Proof.
  intros H. destruct (N.eq_dec y y') as [->|Ne]; [reflexivity|].
  assert (A : (y < 128 /\ y' < 128)%N).
  { unfold same_char, fold_case in H.
    destruct ((65 <=? y) && (y <=? 90))%N eqn:E1, ((65 <=? y') && (y' <=? 90))%N eqn:E2;
      rewrite ?andb_true_iff, ?andb_false_iff, ?N.leb_le, ?N.leb_gt in *; intuition lia. }
  rewrite !normal_form_ascii by apply A. exact H.
Qed.

Lemma fold_trans_r x y y' : same_char false y y' -> same_char false x y <-> same_char false x y'.
Proof. unfold same_char. intros ->. reflexivity. Qed.

Lemma candidate_case : forall a o m m' ps ps' s c c',
  metric_reached a o m -> metric_reached a o m' -> case_ignored o s ->
  Forall2 (same_char false) c c' ->
  accepts (find ps m s c) <-> accepts (find ps' m' s c').
Proof.
  intros a o m m' ps ps' s c c' Hm Hm' Hi F. destruct (Forall2_pairs _ _ _ F) as (L & <- & <- & HL).
  apply (ignored_accepts a o m m' ps ps' s L Hm Hm' Hi).
  - intros b Hb. apply fold_sigil; [apply HL, Hb|cbn; tauto].
  - intros x b Hx Hb. unfold agrees. rewrite (fold_trans_r x _ _ (HL b Hb)), (fold_trans_r x _ _ (normal_form_fold _ _ (HL b Hb))).
    reflexivity.
Qed.

(** ** Accents *)

Lemma normal_form_space y : (y =? 32)%N = (normal_form y =? 32)%N.
Proof.
  destruct (N.eqb_spec y 32) as [->|Hy].
  - rewrite normal_form_ascii by reflexivity. reflexivity.
  - symmetry. apply N.eqb_neq. destruct (Claims6.normal_form_letter y) as [->|H]; [exact Hy|].
    unfold ascii_letter in H. lia.
Qed.

Lemma agrees_normal_form sens x y : normal_form x = x ->
  agrees sens true x y <-> agrees sens true x (normal_form y).
Proof.
  intros Hx. unfold agrees. rewrite normal_form_idempotent. split; [|tauto].
  intros [H|[_ H]]; [|left; exact H]. destruct sens.
  - cbn in H. subst y. left. cbn. symmetry. exact Hx.
  - apply normal_form_fold in H. rewrite Hx in H. left. exact H.
Qed.

Lemma candidate_accents : forall a o m m' ps ps' s c,
  metric_reached a o m -> metric_reached a o m' -> opt_norm o = true -> (forall x, In x s -> normal_form x = x) ->
  accepts (find ps m s c) <-> accepts (find ps' m' s (map normal_form c)).
Proof.
  intros a o m m' ps ps' s c Hm Hm' Hn Hs.
  set (L := map (fun y => (y, normal_form y)) c).
  assert (E1 : one L = c) by (unfold L; rewrite map_map; cbn; apply map_id).
  assert (E2 : two L = map normal_form c) by (unfold L; rewrite map_map; reflexivity).
  assert (HL : forall b, In b L -> snd b = normal_form (fst b)).
  { intros b Hb. unfold L in Hb. apply in_map_iff in Hb as (y & <- & _). reflexivity. }
  rewrite <- E1 at 1. rewrite <- E2. apply (accepts_par UC UC a o o m m' L Hm Hm').
  - intros b Hb. rewrite (HL b Hb). apply normal_form_space.
  - apply (rel_par UC UC o o L _ _ _ (parse_diag _ s Hs)); [intros x x' [-> _]; reflexivity|].
    intros t t' x x' b (_ & _ & T) [-> Hx] Hb. apply Forall2_eq_and in T as [<- T].
    apply char_eq_iff. rewrite Hn, (HL b Hb). apply agrees_normal_form, Hx.
Qed.

(** ** Candidates which look alike *)

Lemma look_alike : forall a o m m' ps ps' s c c' buf,
  metric_reached a o m -> metric_reached a o m' ->
  Forall2 (fun y y' => place_of (opt_scheme o) y = place_of (opt_scheme o) y' /\ (y = 32%N <-> y' = 32%N)
             /\ forall sens x, In x s -> agrees sens (opt_norm o) x y <-> agrees sens (opt_norm o) x y') c c' ->
  find ps m s c = find ps' m' s c'
  /\ (Forall2 (fun y y' => len_utf8 y = len_utf8 y') c c' -> find_ranges ps m s c buf = find_ranges ps' m' s c' buf).
Proof.
  intros a o m m' ps ps' s c c' buf Hm Hm' F. destruct (Forall2_pairs _ _ _ F) as (L & <- & <- & HL).
  destruct (find_par UC UC a o o m m' L Hm Hm') with (ps := ps) (ps' := ps') (s := s) (s' := s) (buf := buf) as [E1 E2].
  - intros b Hb. destruct (HL b Hb) as (_ & S & _).
    destruct (N.eqb_spec (fst b) 32), (N.eqb_spec (snd b) 32); tauto.
  - reflexivity.
  - intros b Hb. apply (HL b Hb).
  - apply (rel_par UC UC o o L _ _ _ (parse_diag (fun x => In x s) s (fun x Hx => Hx))); [intros x x' [-> _]; reflexivity|].
    intros t t' x x' b (_ & _ & T) [-> Hx] Hb. apply Forall2_eq_and in T as [<- T].
    apply char_eq_iff. apply (HL b Hb), Hx.
  - split; [exact E1|]. intros W. apply E2. intros b Hb.
    apply Forall2_pairs_in with (1 := W). exact Hb.
Qed.

End WithUnicode.
