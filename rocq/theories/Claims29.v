(** Proofs of C96 and C97: rankings of parts of a list, and queries which both parsers read alike. *)
From Coq Require Import Sorted Permutation.
From Verif Require Import Prelude Chars Normalize Utils Candidate MatchedRanges Query Parser Scoring
  Slab Fzf FzfV1 FzfV2 Api Usage History
  Spec Typing Ranking PreludeProofs CharsProofs NormalizeProofs CandidateProofs MatchedRangesProofs ParserProofs
  ScoreProofs ExactProofs ShapeProofs V1Proofs V2Tables V2Proofs V2Rows V2Fuzzy V2Facts ApiProofs AcceptProofs
  RangeProofs WordsProofs CongProofs FuzzyFacts Claims1 Claims2 Claims3 Claims4 Claims7 Claims20.
Local Open Scope nat_scope.

Notation le_dist := (fun x y : str * distance => distance_cmp (snd x) (snd y) <> Gt).
Notation at_dist d := (filter (fun e : str * distance => distance_eqb (snd e) d)).

(** * Sorted lists *)

Lemma distance_eqb_refl d : distance_eqb d d = true.
Proof. apply Z.eqb_refl. Qed.

Lemma distance_eqb_eq d d' : distance_eqb d d' = true -> d = d'.
Proof. destruct d as [x], d' as [y]. unfold distance_eqb. cbn [into_score]. rewrite Z.eqb_eq. congruence. Qed.

(** A sorted list is determined by the order of the elements of each distance. *)
Lemma sorted_unique (l l' : list (str * distance)) : StronglySorted le_dist l -> StronglySorted le_dist l' ->
  (forall d, at_dist d l = at_dist d l') -> l = l'.
Proof.
  intros S. revert l'. induction S as [|x l S IH Fx]; intros l' S' H.
  - destruct l' as [|y l']; [reflexivity|]. specialize (H (snd y)). cbn [filter] in H. rewrite distance_eqb_refl in H. discriminate.
  - destruct S' as [|y l' S' Fy].
    + specialize (H (snd x)). cbn [filter] in H. rewrite distance_eqb_refl in H. discriminate.
    + assert (Ix : In x (y :: l')).
      { assert (I : In x (at_dist (snd x) (x :: l))) by (apply filter_In; split; [left; reflexivity|apply distance_eqb_refl]).
        rewrite H in I. apply filter_In in I. tauto. }
      assert (Iy : In y (x :: l)).
      { assert (I : In y (at_dist (snd y) (y :: l'))) by (apply filter_In; split; [left; reflexivity|apply distance_eqb_refl]).
        rewrite <- H in I. apply filter_In in I. tauto. }
      rewrite Forall_forall in Fx, Fy.
      assert (Ed : distance_eqb (snd y) (snd x) = true).
      { unfold distance_eqb. apply Z.eqb_eq. destruct Ix as [->|Ix]; [reflexivity|]. destruct Iy as [->|Iy]; [reflexivity|].
        specialize (Fx _ Iy). specialize (Fy _ Ix). cbv beta in Fx, Fy. rewrite cmp_score in Fx, Fy. lia. }
      assert (E : x = y).
      { pose proof (H (snd x)) as Hd. cbn [filter] in Hd. rewrite distance_eqb_refl, Ed in Hd. congruence. }
      subst y. f_equal. apply IH; [exact S'|]. intros d. specialize (H d). cbn [filter] in H.
      destruct (distance_eqb (snd x) d); congruence.
Qed.

Lemma sorted_filter (p : str * distance -> bool) l : StronglySorted le_dist l -> StronglySorted le_dist (filter p l).
Proof.
  induction 1 as [|x l S IH F]; [constructor|]. cbn [filter]. destruct (p x); [|exact IH]. constructor; [exact IH|].
  rewrite Forall_forall in *. intros y Hy. apply filter_In in Hy. apply F. tauto.
Qed.

Lemma filter_comm {A} (p r : A -> bool) l : filter p (filter r l) = filter r (filter p l).
Proof.
  induction l as [|x l IH]; [reflexivity|]. cbn [filter]. destruct (r x) eqn:R, (p x) eqn:P; cbn [filter];
    rewrite ?R, ?P, IH; reflexivity.
Qed.

Lemma sort_filter p l : sort_by_distance (filter p l) = filter p (sort_by_distance l).
Proof.
  destruct (sort_spec (filter p l)) as (_ & S1 & F1). destruct (sort_spec l) as (_ & S2 & F2).
  apply sorted_unique; [exact S1|apply sorted_filter, S2|]. intros d. rewrite F1, (filter_comm _ p l), (filter_comm _ p (sort_by_distance l)), F2. reflexivity.
Qed.

(** * Merging *)

Notation merge := (@merge_by str distance (not_after distance_cmp)).

Lemma merge_nil_r (xs : list (str * distance)) : merge xs [] = xs.
Proof. destruct xs; reflexivity. Qed.

Lemma merge_cons x xs y ys : merge (x :: xs) (y :: ys)
  = if not_after distance_cmp (snd x) (snd y) then x :: merge xs (y :: ys) else y :: merge (x :: xs) ys.
Proof. reflexivity. Qed.

Lemma merge_in xs ys (P : str * distance -> Prop) : Forall P xs -> Forall P ys -> Forall P (merge xs ys).
Proof.
  intros F. revert ys. induction F as [|x xs Px Fx IH]; intros ys G; [exact G|].
  induction G as [|y ys Py G IHy]; [rewrite merge_nil_r; constructor; assumption|]. rewrite merge_cons.
  destruct (not_after _ _ _); constructor; try assumption. apply IH. constructor; assumption.
Qed.

Lemma not_after_iff d d' : not_after distance_cmp d d' = true <-> distance_cmp d d' <> Gt.
Proof. unfold not_after. destruct (distance_cmp d d'); split; congruence. Qed.

Lemma merge_sorted xs ys : StronglySorted le_dist xs -> StronglySorted le_dist ys -> StronglySorted le_dist (merge xs ys).
Proof.
  intros Sx. revert ys. induction Sx as [|x xs Sx IH Fx]; intros ys Sy; [exact Sy|].
  induction Sy as [|y ys Sy IHy Fy]; [rewrite merge_nil_r; constructor; assumption|]. rewrite merge_cons.
  destruct (not_after _ _ _) eqn:E.
  - apply not_after_iff in E. constructor; [apply IH; constructor; assumption|]. apply merge_in; [exact Fx|].
    constructor; [exact E|]. rewrite Forall_forall in *. intros z Hz. specialize (Fy z Hz). cbv beta in Fy. rewrite cmp_score in *. lia.
  - assert (G : distance_cmp (snd y) (snd x) <> Gt).
    { unfold not_after in E. destruct (distance_cmp (snd x) (snd y)) eqn:C; try discriminate E.
      rewrite cmp_score. unfold distance_cmp in C. rewrite Z.compare_gt_iff in C. lia. }
    constructor; [exact IHy|]. apply merge_in; [|exact Fy]. constructor; [exact G|].
    rewrite Forall_forall in *. intros z Hz. specialize (Fx z Hz). cbv beta in Fx. rewrite cmp_score in *. lia.
Qed.

Lemma at_dist_none d (l : list (str * distance)) : Forall (fun e => distance_eqb (snd e) d = false) l -> at_dist d l = [].
Proof. induction 1 as [|x l E F IH]; [reflexivity|]. cbn [filter]. rewrite E. exact IH. Qed.

Lemma merge_stable d xs ys : StronglySorted le_dist xs ->
  at_dist d (merge xs ys) = at_dist d xs ++ at_dist d ys.
Proof.
  intros Sx. revert ys. induction Sx as [|x xs Sx IH Fx]; intros ys; [reflexivity|].
  induction ys as [|y ys IHy]; [rewrite merge_nil_r, app_nil_r; reflexivity|]. rewrite merge_cons.
  destruct (not_after _ _ _) eqn:E.
  - cbn [filter]. rewrite IH. destruct (distance_eqb (snd x) d); reflexivity.
  - cbn [filter]. destruct (distance_eqb (snd y) d) eqn:Ey; [|exact IHy].
    assert (N : at_dist d (x :: xs) = []).
    { apply distance_eqb_eq in Ey. subst d. assert (G : (into_score (snd x) < into_score (snd y))%Z).
      { unfold not_after in E. destruct (distance_cmp (snd x) (snd y)) eqn:C; try discriminate E.
        unfold distance_cmp in C. rewrite Z.compare_gt_iff in C. lia. }
      apply at_dist_none. constructor; [unfold distance_eqb; apply Z.eqb_neq; lia|].
      rewrite Forall_forall in *. intros z Hz. specialize (Fx z Hz). cbv beta in Fx. rewrite cmp_score in Fx.
      unfold distance_eqb. apply Z.eqb_neq. lia. }
    rewrite IHy, N. cbn [filter] in N. rewrite N. reflexivity.
Qed.

Lemma sort_app l l' : sort_by_distance (l ++ l') = merge (sort_by_distance l) (sort_by_distance l').
Proof.
  destruct (sort_spec (l ++ l')) as (_ & S & F). destruct (sort_spec l) as (_ & S1 & F1). destruct (sort_spec l') as (_ & S2 & F2).
  apply sorted_unique; [exact S|apply merge_sorted; assumption|]. intros d. rewrite merge_stable by exact S1.
  rewrite F, F1, F2, filter_app. reflexivity.
Qed.

(** * One more candidate *)

Lemma insert_around y x a b : StronglySorted le_dist (x :: b) ->
  exists a' b', insert_by_distance y (a ++ x :: b) = a' ++ x :: b' /\ insert_by_distance y (a ++ b) = a' ++ b'.
Proof.
  intros S. inversion S as [|? ? Sb Fb]; subst. induction a as [|z a IH]; cbn [app insert_by_distance].
  - destruct (distance_cmp (snd y) (snd x)) eqn:E.
    1,2: (exists [y], b; split; [reflexivity|]; destruct b as [|w b]; [reflexivity|]; cbn [insert_by_distance];
      inversion Fb as [|? ? Fw _]; subst; assert (G : distance_cmp (snd y) (snd w) <> Gt);
      [assert (H : distance_cmp (snd y) (snd x) <> Gt) by congruence; rewrite cmp_score in *; lia|];
      destruct (distance_cmp (snd y) (snd w)); [reflexivity|reflexivity|congruence]).
    exists [], (insert_by_distance y b). split; reflexivity.
  - destruct IH as (a' & b' & E1 & E2). destruct (distance_cmp (snd y) (snd z)).
    + exists (y :: z :: a), b. split; reflexivity.
    + exists (y :: z :: a), b. split; reflexivity.
    + exists (z :: a'), b'. rewrite E1, E2. split; reflexivity.
Qed.

Lemma sorted_tail l1 l2 : StronglySorted le_dist (l1 ++ l2) -> StronglySorted le_dist l2.
Proof. induction l1 as [|x l1 IH]; [exact (fun S => S)|]. cbn [app]. intros S. inversion S; subst. auto. Qed.

Lemma sort_around x l1 l2 :
  exists a b, sort_by_distance (l1 ++ x :: l2) = a ++ x :: b /\ sort_by_distance (l1 ++ l2) = a ++ b.
Proof.
  induction l1 as [|y l1 IH]; cbn [app sort_by_distance].
  - generalize (sort_by_distance l2). intros l. induction l as [|z l IH]; cbn [insert_by_distance].
    + exists [], []. split; reflexivity.
    + destruct (distance_cmp (snd x) (snd z)); [exists [], (z :: l); split; reflexivity..|].
      destruct IH as (a & b & E1 & E2). exists (z :: a), b. rewrite E1. split; [reflexivity|]. cbn [app]. congruence.
  - destruct IH as (a & b & E1 & E2). rewrite E1, E2. apply insert_around.
    destruct (sort_spec (l1 ++ x :: l2)) as (_ & S & _). rewrite E1 in S. eapply sorted_tail. exact S.
Qed.

Section Claims.
Context {UC : unicode}.

Lemma rank_sorts a o m q cs : metric_reached a o m -> query_reached q ->
  exists f m', rank m q cs = Ok (sort_by_distance (found_in f cs), m') /\ metric_reached a o m'
  /\ forall m0 c, metric_reached a o m0 -> exists m0', metric_distance m0 q c = Ok (f c, m0').
Proof.
  intros Hm Hq. destruct (ranking a o m q cs Hm Hq) as (f & rs & m' & E & H' & F & _ & S & St).
  exists f, m'. split; [|split; assumption]. rewrite E. repeat f_equal.
  destruct (sort_spec (found_in f cs)) as (_ & S' & St'). apply sorted_unique; [exact S|exact S'|].
  intros d. rewrite St, St'. reflexivity.
Qed.

Lemma found_in_ext {D} (f g : str -> option D) cs : (forall c, f c = g c) -> found_in f cs = found_in g cs.
Proof. intros E. unfold found_in. apply flat_map_ext. intros c. rewrite E. reflexivity. Qed.

Lemma rank_sorts2 a o m m' q : metric_reached a o m -> metric_reached a o m' -> query_reached q ->
  exists f, (forall m0 c, metric_reached a o m0 -> exists m0', metric_distance m0 q c = Ok (f c, m0'))
  /\ (forall m0 cs rs m1, metric_reached a o m0 -> rank m0 q cs = Ok (rs, m1) -> rs = sort_by_distance (found_in f cs)).
Proof.
  intros Hm Hm' Hq. destruct (rank_sorts a o m q [] Hm Hq) as (f & _ & _ & _ & F). exists f. split; [exact F|].
  intros m0 cs rs m1 H0 E. destruct (rank_sorts a o m0 q cs H0 Hq) as (g & m2 & E2 & _ & G). rewrite E in E2.
  assert (rs = sort_by_distance (found_in g cs)) by congruence. rewrite H. f_equal. apply found_in_ext.
  intros c. destruct (F m c Hm) as (x & X). destruct (G m c Hm) as (y & Y). clear E E2. rewrite X in Y. congruence.
Qed.

Lemma found_in_filter {D} (f : str -> option D) (p : str -> bool) cs :
  found_in f (filter p cs) = filter (fun e => p (fst e)) (found_in f cs).
Proof.
  unfold found_in. induction cs as [|c cs IH]; [reflexivity|]. cbn [filter flat_map]. rewrite filter_app, <- IH.
  destruct (p c) eqn:P; cbn [flat_map]; destruct (f c); cbn [filter fst app]; rewrite ?P; reflexivity.
Qed.

(** ** Statements *)

Lemma c96_subset : forall a o m1 m2 q (p : str -> bool) cs rs1 rs2 m1' m2',
  metric_reached a o m1 -> metric_reached a o m2 -> query_reached q ->
  rank m1 q cs = Ok (rs1, m1') -> rank m2 q (filter p cs) = Ok (rs2, m2') ->
  rs2 = filter (fun e => p (fst e)) rs1.
Proof.
  intros a o m1 m2 q p cs rs1 rs2 m1' m2' H1 H2 Hq E1 E2.
  destruct (rank_sorts2 a o m1 m2 q H1 H2 Hq) as (f & _ & R). apply R in E1; [|exact H1]. apply R in E2; [|exact H2].
  subst. rewrite found_in_filter. apply sort_filter.
Qed.

Lemma c96_chunks : forall a o m m1 m2 q cs1 cs2 rs rs1 rs2 m' m1' m2',
  metric_reached a o m -> metric_reached a o m1 -> metric_reached a o m2 -> query_reached q ->
  rank m q (cs1 ++ cs2) = Ok (rs, m') -> rank m1 q cs1 = Ok (rs1, m1') -> rank m2 q cs2 = Ok (rs2, m2') ->
  rs = merge_by (not_after distance_cmp) rs1 rs2.
Proof.
  intros a o m m1 m2 q cs1 cs2 rs rs1 rs2 m' m1' m2' H0 H1 H2 Hq E0 E1 E2.
  destruct (rank_sorts2 a o m1 m2 q H1 H2 Hq) as (f & _ & R). apply R in E0; [|exact H0]. apply R in E1; [|exact H1].
  apply R in E2; [|exact H2]. subst. unfold found_in at 1. rewrite flat_map_app. apply sort_app.
Qed.

Lemma c96_insert : forall a o m1 m2 m3 q cs1 c cs2 rs1 rs2 d m1' m2' m3',
  metric_reached a o m1 -> metric_reached a o m2 -> metric_reached a o m3 -> query_reached q ->
  rank m1 q (cs1 ++ cs2) = Ok (rs1, m1') -> rank m2 q (cs1 ++ c :: cs2) = Ok (rs2, m2') ->
  metric_distance m3 q c = Ok (d, m3') ->
  match d with
  | None => rs2 = rs1
  | Some d => exists above below, rs1 = above ++ below /\ rs2 = above ++ (c, d) :: below
  end.
Proof.
  intros a o m1 m2 m3 q cs1 c cs2 rs1 rs2 d m1' m2' m3' H1 H2 H3 Hq E1 E2 E3.
  destruct (rank_sorts2 a o m1 m2 q H1 H2 Hq) as (f & F & R). apply R in E1; [|exact H1]. apply R in E2; [|exact H2].
  destruct (F m3 c H3) as (n & En). rewrite E3 in En. assert (Ed : d = f c) by congruence. clear E3 En.
  unfold found_in in E1, E2. rewrite flat_map_app in E1, E2. cbn [flat_map] in E2. rewrite <- Ed in E2.
  destruct d as [d|]; [|cbn [app] in E2; congruence]. cbn [app] in E2.
  destruct (sort_around (c, d) (found_in f cs1) (found_in f cs2)) as (u & v & U & V).
  exists u, v. unfold found_in in U, V. split; congruence.
Qed.

Lemma plain_term w : plain w -> w <> [124%N] -> is_term w = Some (Term false KFuzzy w).
Proof.
  intros (Ne & Hd & La) Nb. unfold is_term.
  assert (B : is_bar w = false).
  { destruct w as [|x [|y w]]; try reflexivity. cbn [is_bar]. apply N.eqb_neq. congruence. }
  rewrite B. unfold term_of, bang, dollar, open_sigil. destruct w as [|x w]; [congruence|]. cbn [hd] in Hd.
  cbn [In] in Hd. assert (X : (x <> 33 /\ x <> 39 /\ x <> 94)%N) by (repeat split; intro; subst; apply Hd; auto).
  destruct X as (X1 & X2 & X3). apply N.eqb_neq in X1, X2, X3. rewrite X1. cbv zeta beta iota.
  apply N.eqb_neq in La. destruct w as [|y w].
  - rewrite X2, X3. reflexivity.
  - rewrite La. rewrite X2, X3. reflexivity.
Qed.

Lemma c97 : forall a o m ps ps' w c buf, metric_reached a o m -> plain w -> w <> [124%N] ->
  find_raw ps' m w c <> Panic ->
  find_raw ps' m w c = find ps m (escape w) c
  /\ find_ranges_raw ps' m w c buf = find_ranges ps m (escape w) c buf.
Proof.
  intros a o m ps ps' w c buf Hm Pw Nb NP. apply metric_reached_options in Hm.
  rewrite (find_raw_spec a o) in * by exact Hm. rewrite (find_ranges_raw_spec a o) by exact Hm.
  rewrite (find_spec a o), (find_ranges_spec a o) by exact Hm.
  assert (Ne : w <> []) by (destruct Pw; assumption).
  rewrite (parse_spec_alone w _ Ne (plain_term w Pw Nb)). unfold outcome, raw_outcome.
  destruct (_ <=? _); [|congruence]. destruct w as [|x w]; [congruence|]. split; reflexivity.
Qed.

End Claims.
