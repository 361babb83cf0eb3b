(** Two searches side by side: with two Unicode tables, two sets of options, two queries and two
    candidates. They give the same result if the characters compare alike, position by position. *)
From Coq Require Import Sorted.
From Verif Require Import Prelude Chars Normalize Utils Candidate MatchedRanges Query Parser Scoring
  Slab Fzf FzfV1 FzfV2 Api History
  Spec PreludeProofs CharsProofs NormalizeProofs CandidateProofs MatchedRangesProofs ParserProofs
  ScoreProofs ExactProofs ExactChoice ShapeProofs V1Proofs V2Tables V2Proofs V2Rows V2Fuzzy V2Facts ApiProofs CongProofs.
Local Open Scope nat_scope.

(** Lists of pairs stand for two lists of the same length. *)
Notation one := (map fst).
Notation two := (map snd).

Lemma find_last_idx_map {A B} (h : A -> B) (f : B -> bool) l : find_last_idx f (map h l) = find_last_idx (fun x => f (h x)) l.
Proof. induction l as [|x l IH]; [reflexivity|]. cbn [map find_last_idx]. rewrite IH. reflexivity. Qed.

Lemma count_while_cong {A} (f g : A -> bool) l : (forall x, In x l -> f x = g x) -> count_while f l = count_while g l.
Proof.
  induction l as [|x l IH]; intros H; [reflexivity|]. cbn [count_while]. rewrite (H x) by (left; reflexivity).
  destruct (g x); [|reflexivity]. f_equal. apply IH. intros y Hy. apply H. right. exact Hy.
Qed.

Lemma count_while_map {A B} (h : A -> B) (f : B -> bool) l : count_while f (map h l) = count_while (fun x => f (h x)) l.
Proof. induction l as [|x l IH]; [reflexivity|]. cbn [map count_while]. rewrite IH. reflexivity. Qed.

Lemma pairs_of {A B} (l : list A) : forall l' : list B, length l = length l' -> exists L, one L = l /\ two L = l'.
Proof.
  induction l as [|x l IH]; intros [|y l'] H; try discriminate; [exists []; auto|].
  injection H as H. destruct (IH l' H) as (L & <- & <-). exists ((x, y) :: L). auto.
Qed.

Lemma Forall2_pairs {A B} (R : A -> B -> Prop) l l' : Forall2 R l l' ->
  exists L, one L = l /\ two L = l' /\ forall p, In p L -> R (fst p) (snd p).
Proof.
  induction 1 as [|x y l l' H F (L & <- & <- & HL)]; [exists []; cbn; intuition|].
  exists ((x, y) :: L). cbn. split; [reflexivity|]. split; [reflexivity|]. intros p [<-|Hp]; [exact H|apply HL, Hp].
Qed.

Notation pairs := (list (char * char)).

Section Eq.
Variables (eq eq' : char_eq_fn).

(** The characters compare alike. *)
Definition par (P L : pairs) : Prop :=
  forall a b, In a P -> In b L -> eq (fst a) (fst b) = eq' (snd a) (snd b).

Lemma par_sub P L P' L' : par P L -> (forall x, In x P' -> In x P) -> (forall x, In x L' -> In x L) -> par P' L'.
Proof. intros H HP HL a b Ha Hb. apply H; auto. Qed.

Lemma hits_par P : forall L, par P L -> hits eq (one P) (one L) = hits eq' (two P) (two L).
Proof.
  induction P as [|[x x'] P IH]; intros [|[y y'] L] H; try reflexivity. cbn [hits map].
  pose proof (H (x, x') (y, y') (or_introl eq_refl) (or_introl eq_refl)) as E. cbn [fst snd] in *. rewrite E.
  rewrite IH; [reflexivity|]. eapply par_sub; [exact H|..]; intros; right; assumption.
Qed.

Lemma greedy_par : forall L P k, par P L -> greedy eq (one P) (one L) k = greedy eq' (two P) (two L) k.
Proof.
  induction L as [|[y y'] L IH]; intros [|[x x'] P] k H; try reflexivity. cbn [map]. rewrite !greedy_cons. cbn [fst snd].
  pose proof (H (x, x') (y, y') (or_introl eq_refl) (or_introl eq_refl)) as E. cbn [fst snd] in E. rewrite E.
  rewrite (IH P) by (eapply par_sub; [exact H|..]; intros; right; assumption).
  assert (E2 : greedy eq (one ((x, x') :: P)) (one L) (S k) = greedy eq' (two ((x, x') :: P)) (two L) (S k)).
  { apply IH. eapply par_sub; [exact H|auto|intros; right; assumption]. }
  cbn [map fst snd] in E2. rewrite E2. reflexivity.
Qed.

Lemma agreed_len_par P : forall L, par P L -> agreed_len eq (one P) (one L) = agreed_len eq' (two P) (two L).
Proof.
  induction P as [|[x x'] P IH]; intros [|[y y'] L] H; try reflexivity. cbn [agreed_len map].
  pose proof (H (x, x') (y, y') (or_introl eq_refl) (or_introl eq_refl)) as E. cbn [fst snd] in *. rewrite E.
  rewrite IH; [reflexivity|]. eapply par_sub; [exact H|..]; intros; right; assumption.
Qed.

Lemma skipn_par P L i : par P L -> par P (skipn i L).
Proof. intros H. eapply par_sub; [exact H|auto|]. intros x. apply in_skipn. Qed.
Lemma firstn_par P L i : par P L -> par P (firstn i L).
Proof. intros H. eapply par_sub; [exact H|auto|]. intros x. apply in_firstn. Qed.

Lemma occ_par P L i : par P L -> occ eq (one P) (one L) i <-> occ eq' (two P) (two L) i.
Proof. intros H. unfold occ. rewrite !skipn_map, hits_par by (apply skipn_par, H). reflexivity. Qed.

End Eq.

(** Spaces at the same positions. *)
Definition spaces_par (L : pairs) : Prop := forall a, In a L -> (fst a =? 32)%N = (snd a =? 32)%N.

Lemma lead_par L : spaces_par L -> lead (one L) = lead (two L).
Proof. intros H. unfold lead. rewrite !count_while_map. apply count_while_cong. exact H. Qed.

Lemma trail_par L : spaces_par L -> trail (one L) = trail (two L).
Proof.
  intros H. unfold trail. rewrite <- !map_rev, !count_while_map. apply count_while_cong.
  intros x Hx. apply H. apply in_rev. exact Hx.
Qed.

Section Spaces.
Variables (eq eq' : char_eq_fn) (P L : pairs).
Hypotheses (H : par eq eq' P L) (SP : spaces_par P) (SL : spaces_par L).

Lemma prefix_find_par : prefix_find eq (one P) (one L) = prefix_find eq' (two P) (two L).
Proof. unfold prefix_find. rewrite !skipn_map, !lead_par, (hits_par eq eq') by (auto using skipn_par). reflexivity. Qed.

Lemma suffix_find_par : suffix_find eq (one P) (one L) = suffix_find eq' (two P) (two L).
Proof.
  unfold suffix_find. cbv zeta. rewrite !map_length, !trail_par by auto.
  rewrite !firstn_map, !skipn_map, (hits_par eq eq') by (auto using skipn_par, firstn_par). reflexivity.
Qed.

Lemma equal_find_par : equal_find eq (one P) (one L) = equal_find eq' (two P) (two L).
Proof.
  unfold equal_find. cbv zeta. rewrite !map_length, !trail_par, !lead_par by auto.
  rewrite !skipn_map, (hits_par eq eq') by (auto using skipn_par). reflexivity.
Qed.
End Spaces.

(** ** The tables of FzfV2 with two equal bonus functions *)

Section Bonus.
Variables (hit : nat -> nat -> bool) (bonus bonus' : nat -> Z) (first : nat -> nat) (stop h : nat).
Hypothesis Hb : forall j, bonus j = bonus' j.

Lemma table_bonus i : forall j, table hit bonus first stop i j = table hit bonus' first stop i j.
Proof.
  induction i as [|i IHi]; cbn [table]; induction j as [|j IHj].
  - unfold first_row. rewrite Hb. reflexivity.
  - cbn [table] in IHj. rewrite !first_row_S, Hb, IHj. reflexivity.
  - reflexivity.
  - cbn [table] in IHj. rewrite !next_row_S, IHj, IHi. cbv zeta. rewrite !Hb. reflexivity.
Qed.

Lemma best_cell_bonus i j : best_cell hit bonus first stop h i j -> best_cell hit bonus' first stop h i j.
Proof.
  intros (C & M & L). split; [exact C|]. split; intros i' j' C'; rewrite <- !table_bonus; [apply M|apply L]; exact C'.
Qed.

Lemma way_back_bonus : forall j i prefer,
  way_back hit bonus first stop h i j prefer = way_back hit bonus' first stop h i j prefer.
Proof.
  induction j as [|j IH]; intros i prefer; rewrite (back_eq hit bonus), (back_eq hit bonus').
  - unfold taken. rewrite !table_bonus. destruct i; reflexivity.
  - unfold taken, pref. rewrite !table_bonus. destruct i as [|i]; [|rewrite table_bonus]; rewrite !IH; reflexivity.
Qed.
End Bonus.

(** ** Points *)

Section Points.
Variables (UC UC' : unicode) (sch : fzf_scheme) (L : pairs).

(** Characters of the same class at the same positions. *)
Definition places_par : Prop := forall a, In a L -> @place_of UC sch (fst a) = @place_of UC' sch (snd a).

Hypothesis HL : places_par.

Lemma place_par j : @place_of UC sch (nth j (one L) 0%N) = @place_of UC' sch (nth j (two L) 0%N).
Proof.
  destruct (Nat.lt_ge_cases j (length L)) as [H|H].
  - pose proof (map_nth fst L (0%N, 0%N) j) as E1. pose proof (map_nth snd L (0%N, 0%N) j) as E2.
    cbn [fst snd] in E1, E2. rewrite E1, E2. apply HL. apply nth_In. exact H.
  - rewrite !nth_overflow by (rewrite map_length; exact H). destruct sch; cbn; unfold delimiters; destruct UC as [[] ? ? ? ? ?], UC' as [[] ? ? ? ? ?]; reflexivity.
Qed.

Lemma bonus_par j : @bonus_of UC sch (one L) j = @bonus_of UC' sch (two L) j.
Proof. unfold bonus_of. rewrite place_par. destruct j; [|rewrite place_par]; reflexivity. Qed.

Lemma rest_score_par ps : forall prev best,
  @rest_score UC sch (one L) prev best ps = @rest_score UC' sch (two L) prev best ps.
Proof.
  induction ps as [|j ps IH]; intros prev best; [reflexivity|]. cbn [rest_score]. rewrite bonus_par, !IH. reflexivity.
Qed.

Lemma alignment_score_par ps : @alignment_score UC sch (one L) ps = @alignment_score UC' sch (two L) ps.
Proof. destruct ps; [reflexivity|]. cbn [alignment_score]. rewrite !bonus_par, rest_score_par. reflexivity. Qed.

Lemma place_seen_par eq eq' P j : par eq eq' P L ->
  @place_seen UC eq sch (one P) (one L) j = @place_seen UC' eq' sch (two P) (two L) j.
Proof.
  intros H. induction j as [|i IH]; [reflexivity|]. cbn [place_seen].
  rewrite !skipn_map, (agreed_len_par eq eq') by (apply skipn_par, H). rewrite !map_length, !place_par, IH. reflexivity.
Qed.

Lemma bonus_seen_par eq eq' P j : par eq eq' P L ->
  @bonus_seen UC eq sch (one P) (one L) j = @bonus_seen UC' eq' sch (two P) (two L) j.
Proof. intros H. unfold bonus_seen. rewrite (place_seen_par eq eq' P j H), place_par. reflexivity. Qed.

End Points.

(** ** The searches *)

Section Exact.
Variables (UC UC' : unicode) (sch : fzf_scheme) (P L : pairs) (eq eq' : char_eq_fn) (p p' : pattern).
Hypotheses (H : par eq eq' P L) (HL : places_par UC UC' sch L) (Hp : p_text p = one P) (Hp' : p_text p' = two P) (Ne : P <> []).

Lemma exact_find_par : @exact_find UC eq sch p (one L) = @exact_find UC' eq' sch p' (two L).
Proof.
  assert (N : p_text p <> []) by (rewrite Hp; destruct P; [congruence|discriminate]).
  assert (N' : p_text p' <> []) by (rewrite Hp'; destruct P; [congruence|discriminate]).
  destruct (@exact_find UC eq sch p (one L)) as [i|] eqn:E, (@exact_find UC' eq' sch p' (two L)) as [i'|] eqn:E'.
  - apply exact_find_seen in E as (O & A & B); [|exact N]. apply exact_find_seen in E' as (O' & A' & B'); [|exact N'].
    rewrite Hp in *. rewrite Hp' in *. apply (occ_par eq eq') in O; [|exact H].
    assert (Q : forall j, @bonus_seen UC eq sch (one P) (one L) j = @bonus_seen UC' eq' sch (two P) (two L) j)
      by (intros j; apply bonus_seen_par; assumption).
    assert (A1 : forall j, j < i -> occ eq' (two P) (two L) j ->
      (@bonus_seen UC' eq' sch (two P) (two L) j < @bonus_seen UC' eq' sch (two P) (two L) i
       /\ @bonus_seen UC' eq' sch (two P) (two L) j < 8)%Z).
    { intros j Hj Ho. rewrite <- !Q. apply A; [exact Hj|]. apply (occ_par eq eq'); assumption. }
    assert (B1 : (8 <= @bonus_seen UC' eq' sch (two P) (two L) i)%Z
      \/ forall j, occ eq' (two P) (two L) j -> (@bonus_seen UC' eq' sch (two P) (two L) j <= @bonus_seen UC' eq' sch (two P) (two L) i)%Z).
    { rewrite <- Q. destruct B as [B|B]; [left; exact B|right]. intros j Ho. rewrite <- Q. apply B. apply (occ_par eq eq'); assumption. }
    f_equal. destruct (Nat.lt_trichotomy i i') as [Hi|[Hi|Hi]]; [|exact Hi|].
    + destruct (A' i Hi O) as [X Y]. destruct B1 as [B1|B1]; [lia|]. specialize (B1 i' O'). lia.
    + destruct (A1 i' Hi O') as [X Y]. destruct B' as [B2|B2]; [lia|]. specialize (B2 i O). lia.
  - exfalso. apply exact_find_seen in E as (O & _); [|exact N]. apply (exact_find_none _ _ _ _ N' E' i).
    rewrite Hp in O. rewrite Hp'. apply (occ_par eq eq'); assumption.
  - exfalso. apply exact_find_seen in E' as (O & _); [|exact N']. apply (exact_find_none _ _ _ _ N E i').
    rewrite Hp' in O. rewrite Hp. apply (occ_par eq eq'); assumption.
  - reflexivity.
Qed.
End Exact.

Section Fuzzy.
Variables (s n s' n' : bool) (P L : pairs).
Hypothesis H : par (char_eq s n) (char_eq s' n') P L.

Lemma rightmost_par : forall RP e, (forall x, In x RP -> In x P) ->
  rightmost s n (one RP) (one L) e = rightmost s' n' (two RP) (two L) e.
Proof.
  induction RP as [|x RP IH]; intros e Hx; [reflexivity|]. cbn [rightmost map].
  rewrite !firstn_map, !find_last_idx_map.
  rewrite (find_last_idx_cong _ (fun y => char_eq s' n' (snd x) (snd y))).
  - destruct (find_last_idx _ _); [|reflexivity]. apply IH. intros y Hy. apply Hx. right. exact Hy.
  - intros y Hy. apply H; [apply Hx; left; reflexivity|eapply in_firstn; exact Hy].
Qed.

Lemma v1_positions_par : v1_positions s n (one P) (one L) = v1_positions s' n' (two P) (two L).
Proof.
  unfold v1_positions. rewrite (greedy_par _ (char_eq s' n') L P 0 H).
  destruct (greedy (char_eq s' n') (two P) (two L) 0) as [fs|]; [|reflexivity].
  rewrite <- !map_rev, rightmost_par by (intros x Hx; apply in_rev; exact Hx).
  destruct (rightmost s' n' _ _ _) as [k|]; [|reflexivity].
  rewrite !skipn_map, !firstn_map. apply greedy_par. apply firstn_par, skipn_par, H.
Qed.

Lemma hit_of_par i j : hit_of s n (one P) (one L) i j = hit_of s' n' (two P) (two L) i j.
Proof.
  unfold hit_of. rewrite !nth_error_map. destruct (nth_error P i) as [x|] eqn:Ex; [|reflexivity].
  destruct (nth_error L j) as [y|] eqn:Ey; [|reflexivity]. apply H; eapply nth_error_In; eassumption.
Qed.

Lemma last_map {A B} (h : A -> B) l d : l <> [] -> last (map h l) (h d) = h (last l d).
Proof.
  intros Hl. destruct (exists_last Hl) as (l' & x & ->). rewrite map_app. cbn [map]. rewrite !last_last. reflexivity.
Qed.

Lemma last_col_par : P <> [] -> last_col s n (one P) (one L) = last_col s' n' (two P) (two L).
Proof.
  intros Hp. unfold last_col. rewrite !find_last_idx_map.
  pose proof (last_map fst P (0%N, 0%N) Hp) as E1. pose proof (last_map snd P (0%N, 0%N) Hp) as E2.
  cbn [fst snd] in E1, E2. rewrite E1, E2.
  apply find_last_idx_cong. intros y Hy. apply H; [|exact Hy].
  destruct (exists_last Hp) as (q & x & ->). rewrite last_last. apply in_or_app. right. left. reflexivity.
Qed.

Lemma v2_result_par UC UC' sch : places_par UC UC' sch L -> P <> [] ->
  @v2_result UC s n sch (one P) (one L) = @v2_result UC' s' n' sch (two P) (two L).
Proof.
  intros HL Hp. unfold v2_result.
  assert (Hp1 : one P <> []) by (destruct P; [congruence|discriminate]).
  assert (Hp2 : two P <> []) by (destruct P; [congruence|discriminate]).
  pose proof (greedy_par _ (char_eq s' n') L P 0 H) as Eg. pose proof (last_col_par Hp) as El.
  destruct (greedy (char_eq s' n') (two P) (two L) 0) as [fs|] eqn:G'; rewrite Eg; [|reflexivity].
  destruct (last_col s' n' (two P) (two L)) as [stop|] eqn:L'; rewrite El; [|reflexivity].
  pose proof (@v2_best_cell UC s n sch (one P) (one L) fs stop Hp1 Eg El) as B.
  pose proof (@v2_best_cell UC' s' n' sch (two P) (two L) fs stop Hp2 G' L') as B'.
  assert (Hi : fst (@v2_best UC s n sch (one P) (one L) fs stop) < length P) by (rewrite <- (map_length fst P); apply B).
  rewrite map_length in B, B'.
  apply (best_cell_ext _ (hit_of s' n' (two P) (two L)) _ _ (firsts fs) _ _ hit_of_par (fun _ _ => eq_refl)) in B.
  apply (best_cell_bonus _ _ _ _ _ _ (bonus_par UC UC' sch L HL)) in B.
  pose proof (best_cell_unique _ _ _ _ _ _ _ _ _ B B') as [E1 E2].
  destruct (@v2_best UC s n sch (one P) (one L) fs stop) as [i j], (@v2_best UC' s' n' sch (two P) (two L) fs stop) as [i' j'].
  cbn [fst snd] in *. subst i' j'. unfold v2_table. rewrite !map_length.
  rewrite (table_ext _ (hit_of s' n' (two P) (two L)) _ _ (firsts fs) _ _ hit_of_par (fun _ _ => eq_refl) i Hi).
  rewrite (way_back_ext _ (hit_of s' n' (two P) (two L)) _ _ (firsts fs) _ _ hit_of_par (fun _ _ => eq_refl) j i true Hi).
  rewrite (table_bonus _ _ _ _ _ (bonus_par UC UC' sch L HL)), (way_back_bonus _ _ _ _ _ _ (bonus_par UC UC' sch L HL)).
  reflexivity.
Qed.

End Fuzzy.

(** ** What a query gives *)

Section Outcome.
Variables (UC UC' : unicode) (a : algo) (o o' : options) (L : pairs).
Hypothesis Hs : opt_scheme o = opt_scheme o'.
Hypothesis SL : spaces_par L.

Definition widths_par : Prop := forall b, In b L -> len_utf8 (fst b) = len_utf8 (snd b).

Lemma byte_len_firstn_par k : widths_par -> byte_len (firstn k (one L)) = byte_len (firstn k (two L)).
Proof.
  intros W. rewrite !firstn_map. assert (H : forall b, In b (firstn k L) -> len_utf8 (fst b) = len_utf8 (snd b)).
  { intros b Hb. apply W. eapply in_firstn. exact Hb. }
  induction (firstn k L) as [|b l IH]; [reflexivity|]. cbn [map]. rewrite !byte_len_cons, (H b) by (left; reflexivity).
  rewrite IH; [reflexivity|]. intros x Hx. apply H. right. exact Hx.
Qed.

Lemma span_par i j : widths_par -> span (one L) i j = span (two L) i j.
Proof. intros W. unfold span. rewrite !byte_len_firstn_par by exact W. reflexivity. Qed.

Lemma char_range_par j : widths_par -> char_range (one L) j = char_range (two L) j.
Proof. intros W. unfold char_range. rewrite !byte_len_firstn_par by exact W. reflexivity. Qed.

(** The characters of these texts compare with the candidates' alike. *)
Definition text_par (text text' : str) : Prop :=
  exists P, text = one P /\ text' = two P /\ spaces_par P
    /\ par (char_eq (@sensitive_for UC (opt_case o) text) (opt_norm o))
           (char_eq (@sensitive_for UC' (opt_case o') text') (opt_norm o')) P L.

Definition term_par (t t' : term) : Prop :=
  t_neg t = t_neg t' /\ t_kind t = t_kind t' /\ text_par (t_text t) (t_text t').

Definition both (r r' : option (Z * list byte_range)) : Prop :=
  match r, r' with
  | None, None => True
  | Some (sc, rs), Some (sc', rs') => sc = sc' /\ (widths_par -> rs = rs')
  | _, _ => False
  end.

Section Places.
Hypothesis HL : places_par UC UC' (opt_scheme o) L.

Lemma fuzzy_outcome_par text text' : text <> [] -> text_par text text' ->
  both (@fuzzy_outcome UC a o text (one L)) (@fuzzy_outcome UC' a o' text' (two L)).
Proof.
  intros Ht (P & -> & -> & SP & H). unfold fuzzy_outcome. rewrite <- Hs.
  assert (Hp : P <> []) by (destruct P; [exfalso; apply Ht; reflexivity|discriminate]). destruct a.
  - rewrite (v1_positions_par _ _ _ _ _ _ H). destruct (v1_positions _ _ (two P) (two L)) as [ps|]; [|exact I].
    split; [apply alignment_score_par, HL|]. intros W. apply map_ext. intros j. apply char_range_par, W.
  - rewrite (v2_result_par _ _ _ _ _ _ H UC UC' _ HL Hp). destruct (v2_result _ _ _ (two P) (two L)) as [[sc ps]|]; [|exact I].
    split; [reflexivity|]. intros W. apply map_ext. intros j. apply char_range_par, W.
Qed.

Lemma place_found_par t t' : t_text t <> [] -> term_par t t' -> @place_found UC o t (one L) = @place_found UC' o' t' (two L).
Proof.
  intros Ht (_ & Ek & P & E & E' & SP & H). unfold place_found. rewrite <- Ek, <- Hs.
  assert (Hp : P <> []) by (rewrite E in Ht; destruct P; [exfalso; apply Ht; reflexivity|discriminate]).
  destruct (t_kind t).
  - reflexivity.
  - apply (exact_find_par UC UC' (opt_scheme o) P L); auto.
  - rewrite E at 2. rewrite E' at 2. apply prefix_find_par; auto.
  - rewrite E at 2. rewrite E' at 2. apply suffix_find_par; auto.
  - rewrite E at 2. rewrite E' at 2. apply equal_find_par; auto.
Qed.

Lemma base_outcome_par t t' : t_text t <> [] -> term_par t t' ->
  both (@base_outcome UC a o t (one L)) (@base_outcome UC' a o' t' (two L)).
Proof.
  intros Ht H. unfold base_outcome. pose proof H as (_ & Ek & Hx). rewrite <- Ek, (place_found_par t t' Ht H), <- Hs.
  assert (El : length (t_text t) = length (t_text t')).
  { destruct Hx as (P & -> & -> & _). rewrite !map_length. reflexivity. }
  destruct (t_kind t); try (destruct (place_found _ _) as [i|]; [|exact I]; rewrite El; split;
    [apply alignment_score_par, HL|intros W; rewrite span_par by exact W; reflexivity]).
  apply fuzzy_outcome_par; assumption.
Qed.

Lemma term_outcome_par t t' : t_text t <> [] -> term_par t t' ->
  both (@term_outcome UC a o t (one L)) (@term_outcome UC' a o' t' (two L)).
Proof.
  intros Ht H. pose proof (base_outcome_par t t' Ht H) as B. unfold term_outcome. destruct H as (En & _). rewrite <- En.
  destruct (t_neg t); [|exact B].
  destruct (base_outcome _ _ _ (one L)) as [[x r]|], (base_outcome _ _ _ (two L)) as [[x' r']|]; cbn in *; auto; contradiction.
Qed.

Lemma either_outcome_par g g' : Forall (fun t => t_text t <> []) g -> Forall2 term_par g g' ->
  both (@either_outcome UC a o g (one L)) (@either_outcome UC' a o' g' (two L)).
Proof.
  intros Hg F. induction F as [|t t' g g' H F IH]; [exact I|]. inversion Hg; subst. cbn [either_outcome].
  pose proof (term_outcome_par t t' ltac:(assumption) H) as B.
  destruct (term_outcome _ _ _ (one L)) as [[x r]|], (term_outcome _ _ _ (two L)) as [[x' r']|]; cbn in B; try contradiction; [exact B|].
  apply IH. assumption.
Qed.

Definition both_all (r r' : option Z * list byte_range) : Prop := fst r = fst r' /\ (widths_par -> snd r = snd r').

Lemma all_outcome_par q q' : texts_ok q -> Forall2 (Forall2 term_par) q q' ->
  both_all (@all_outcome UC a o q (one L)) (@all_outcome UC' a o' q' (two L)).
Proof.
  intros Hq F. induction F as [|g g' q q' H F IH]; [split; reflexivity|]. inversion Hq; subst. cbn [all_outcome].
  pose proof (either_outcome_par g g' ltac:(assumption) H) as B.
  destruct (either_outcome _ _ _ (one L)) as [[x r]|], (either_outcome _ _ _ (two L)) as [[x' r']|]; cbn in B; try contradiction;
    [|split; reflexivity].
  destruct B as [-> B]. destruct (IH ltac:(assumption)) as [I1 I2].
  destruct (all_outcome _ _ _ (one L)) as [y s], (all_outcome _ _ _ (two L)) as [y' s']. cbn [fst snd] in *. subst y'.
  split; cbn [fst snd]; [reflexivity|]. intros W. rewrite B, I2 by exact W. reflexivity.
Qed.

Lemma outcome_par q q' : texts_ok q -> Forall2 (Forall2 term_par) q q' ->
  both_all (@outcome UC a o q (one L)) (@outcome UC' a o' q' (two L)).
Proof.
  intros Hq F. destruct (@outcome_cases UC q) as [(neg & text & ->)|[E Nq]].
  - inversion F as [|? g' ? ? F1 F2]; subst. inversion F2; subst. inversion F1 as [|t t' ? ? T F3]; subst. inversion F3; subst.
    destruct t' as [neg' k' text']. destruct T as (En & Ek & T). cbn in En, Ek, T. subst neg' k'.
    inversion Hq as [|? ? Hg _]; subst. inversion Hg; subst. cbn [outcome].
    pose proof (fuzzy_outcome_par text text' ltac:(assumption) T) as B.
    destruct (fuzzy_outcome _ _ _ (one L)) as [[x r]|], (fuzzy_outcome _ _ _ (two L)) as [[x' r']|]; cbn in B; try contradiction;
      split; cbn [fst snd]; intuition congruence.
  - destruct (@outcome_cases UC' q') as [(neg & text & ->)|[E' _]].
    + exfalso. inversion F as [|g ? ? ? F1 F2]; subst. inversion F2; subst. inversion F1 as [|t t' ? ? T F3]; subst. inversion F3; subst.
      destruct t as [n0 k0 t0]. destruct T as (En & Ek & _). cbn in En, Ek. subst. discriminate Nq.
    + rewrite E, E'. apply all_outcome_par; assumption.
Qed.

Lemma raw_outcome_par text text' : text_par text text' ->
  both_all (@raw_outcome UC a o text (one L)) (@raw_outcome UC' a o' text' (two L)).
Proof.
  intros H. destruct text as [|x t].
  - destruct H as ([|] & E & E' & _); [|discriminate]. cbn in E'. subst text'. split; reflexivity.
  - pose proof (fuzzy_outcome_par (x :: t) text' ltac:(discriminate) H) as B.
    destruct H as ([|[p p'] P] & E & E' & _); [discriminate|]. cbn [map fst snd] in E'. subst text'. unfold raw_outcome.
    destruct (fuzzy_outcome _ _ _ (one L)) as [[y r]|], (fuzzy_outcome _ _ _ (two L)) as [[y' r']|]; cbn in B; try contradiction;
      split; cbn [fst snd]; intuition congruence.
Qed.

End Places.

(** Whether there is a result does not depend on the places. *)

Definition is_some {A} (x : option A) : bool := match x with Some _ => true | None => false end.

Lemma fuzzy_some_par text text' : text <> [] -> text_par text text' ->
  is_some (@fuzzy_outcome UC a o text (one L)) = is_some (@fuzzy_outcome UC' a o' text' (two L)).
Proof.
  intros Ht (P & -> & -> & SP & H). unfold fuzzy_outcome.
  assert (Hp : P <> []) by (destruct P; [exfalso; apply Ht; reflexivity|discriminate]). destruct a.
  - rewrite (v1_positions_par _ _ _ _ _ _ H). destruct (v1_positions _ _ (two P) (two L)); reflexivity.
  - unfold v2_result. rewrite (greedy_par _ _ L P 0 H), (last_col_par _ _ _ _ _ _ H Hp).
    destruct (greedy _ _ _ _); [|reflexivity]. destruct (last_col _ _ _ _) as [stop|]; [|reflexivity].
    destruct (v2_best _ _ _ _ (one L) _ _), (v2_best _ _ _ _ (two L) _ _). reflexivity.
Qed.

Lemma place_some_par t t' : t_text t <> [] -> term_par t t' ->
  is_some (@place_found UC o t (one L)) = is_some (@place_found UC' o' t' (two L)).
Proof.
  intros Ht (_ & Ek & P & E & E' & SP & H). unfold place_found. rewrite <- Ek.
  assert (Hp : P <> []) by (rewrite E in Ht; destruct P; [exfalso; apply Ht; reflexivity|discriminate]).
  destruct (t_kind t).
  - reflexivity.
  - assert (Ht' : t_text t' <> []) by (rewrite E'; destruct P; [congruence|discriminate]).
    destruct (exact_find _ _ (pat_of t) _) as [i|] eqn:X, (exact_find _ _ (pat_of t') _) as [i'|] eqn:X'; try reflexivity; exfalso.
    + apply exact_find_some in X as (O & _); [|exact Ht]. apply (exact_find_none _ _ (pat_of t') _ Ht' X' i).
      change (p_text (pat_of t)) with (t_text t) in O. change (p_text (pat_of t')) with (t_text t'). rewrite E in O at 2. rewrite E' at 2. apply (occ_par _ _ P L i H). exact O.
    + apply exact_find_some in X' as (O & _); [|exact Ht']. apply (exact_find_none _ _ (pat_of t) _ Ht X i').
      change (p_text (pat_of t')) with (t_text t') in O. change (p_text (pat_of t)) with (t_text t). rewrite E' in O at 2. rewrite E at 2. apply (occ_par _ _ P L i' H). exact O.
  - f_equal. rewrite E at 2. rewrite E' at 2. apply prefix_find_par; auto.
  - f_equal. rewrite E at 2. rewrite E' at 2. apply suffix_find_par; auto.
  - f_equal. rewrite E at 2. rewrite E' at 2. apply equal_find_par; auto.
Qed.

Lemma base_some_par t t' : t_text t <> [] -> term_par t t' ->
  is_some (@base_outcome UC a o t (one L)) = is_some (@base_outcome UC' a o' t' (two L)).
Proof.
  intros Ht H. unfold base_outcome. pose proof H as (_ & Ek & Hx). pose proof (place_some_par t t' Ht H) as B. rewrite <- Ek.
  destruct (t_kind t); try (destruct (place_found _ t _), (place_found _ t' _); cbn in *; congruence).
  apply fuzzy_some_par; assumption.
Qed.

Lemma term_some_par t t' : t_text t <> [] -> term_par t t' ->
  is_some (@term_outcome UC a o t (one L)) = is_some (@term_outcome UC' a o' t' (two L)).
Proof.
  intros Ht H. pose proof (base_some_par t t' Ht H) as B. unfold term_outcome. destruct H as (En & _). rewrite <- En.
  destruct (t_neg t); [|exact B].
  destruct (base_outcome _ _ t (one L)), (base_outcome _ _ t' (two L)); cbn in *; congruence.
Qed.

Lemma either_some_par g g' : Forall (fun t => t_text t <> []) g -> Forall2 term_par g g' ->
  is_some (@either_outcome UC a o g (one L)) = is_some (@either_outcome UC' a o' g' (two L)).
Proof.
  intros Hg F. induction F as [|t t' g g' H F IH]; [reflexivity|]. inversion Hg; subst. cbn [either_outcome].
  pose proof (term_some_par t t' ltac:(assumption) H) as B.
  destruct (term_outcome _ _ t (one L)), (term_outcome _ _ t' (two L)); cbn in B; try discriminate; [reflexivity|].
  apply IH. assumption.
Qed.

Lemma all_some_par q q' : texts_ok q -> Forall2 (Forall2 term_par) q q' ->
  is_some (fst (@all_outcome UC a o q (one L))) = is_some (fst (@all_outcome UC' a o' q' (two L))).
Proof.
  intros Hq F. induction F as [|g g' q q' H F IH]; [reflexivity|]. inversion Hq; subst. cbn [all_outcome].
  pose proof (either_some_par g g' ltac:(assumption) H) as B.
  destruct (either_outcome _ _ g (one L)) as [[x r]|], (either_outcome _ _ g' (two L)) as [[x' r']|]; cbn in B; try discriminate; [|reflexivity].
  specialize (IH ltac:(assumption)).
  destruct (all_outcome _ _ q (one L)) as [[]], (all_outcome _ _ q' (two L)) as [[]]; cbn in *; congruence.
Qed.

Lemma outcome_some_par q q' : texts_ok q -> Forall2 (Forall2 term_par) q q' ->
  is_some (fst (@outcome UC a o q (one L))) = is_some (fst (@outcome UC' a o' q' (two L))).
Proof.
  intros Hq F. destruct (@outcome_cases UC q) as [(neg & text & ->)|[E Nq]].
  - inversion F as [|? g' ? ? F1 F2]; subst. inversion F2; subst. inversion F1 as [|t t' ? ? T F3]; subst. inversion F3; subst.
    destruct t' as [neg' k' text']. destruct T as (En & Ek & T). cbn in En, Ek, T. subst neg' k'.
    inversion Hq as [|? ? Hg _]; subst. inversion Hg; subst. cbn [outcome].
    pose proof (fuzzy_some_par text text' ltac:(assumption) T) as B.
    destruct (fuzzy_outcome _ _ _ (one L)) as [[x r]|], (fuzzy_outcome _ _ _ (two L)) as [[x' r']|]; cbn in *; congruence.
  - destruct (@outcome_cases UC' q') as [(neg & text & ->)|[E' _]].
    + exfalso. inversion F as [|g ? ? ? F1 F2]; subst. inversion F2; subst. inversion F1 as [|t t' ? ? T F3]; subst. inversion F3; subst.
      destruct t as [n0 k0 t0]. destruct T as (En & Ek & _). cbn in En, Ek. subst. discriminate Nq.
    + rewrite E, E'. apply all_some_par; assumption.
Qed.

End Outcome.
