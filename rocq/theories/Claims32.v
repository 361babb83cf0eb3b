(** Proofs for C99: displaying the ranges. *)
From Coq Require Import Sorted.
From Verif Require Import Prelude Chars Normalize Utils Candidate MatchedRanges Query Parser Scoring
  Slab Fzf FzfV1 FzfV2 Api History
  Spec Highlight PreludeProofs CharsProofs NormalizeProofs CandidateProofs MatchedRangesProofs ParserProofs
  ApiProofs Claims1 Claims2 Claims3 Claims4 Claims8.
Local Open Scope nat_scope.

Definition cut (c : str) (r : nat * nat) : str := firstn (snd r - fst r) (skipn (fst r) c).
Definition bytes_at (c : str) (r : nat * nat) : nat * nat := (byte_len (firstn (fst r) c), byte_len (firstn (snd r) c)).

Lemma boundary_at c x : is_char_boundary (encode c) (byte_len (firstn x c)) = true.
Proof. pose proof (boundary_prefix (firstn x c) (skipn x c)) as H. rewrite firstn_skipn in H. exact H. Qed.

Lemma skip_at c x : skipn (byte_len (firstn x c)) (encode c) = encode (skipn x c).
Proof. pose proof (skipn_encode (firstn x c) (skipn x c)) as H. rewrite firstn_skipn in H. exact H. Qed.

Lemma first_at c x : firstn (byte_len (firstn x c)) (encode c) = encode (firstn x c).
Proof. pose proof (firstn_encode (firstn x c) (skipn x c)) as H. rewrite firstn_skipn in H. exact H. Qed.

Lemma str_range_cut c x y : x <= y ->
  str_range (encode c) (byte_len (firstn x c)) (byte_len (firstn y c)) = Ok (encode (firstn (y - x) (skipn x c))).
Proof.
  intros H. unfold str_range. pose proof (byte_len_firstn_le c x y H) as L. rewrite (proj2 (Nat.leb_le _ _) L).
  rewrite !boundary_at. cbn [andb]. f_equal. rewrite skip_at.
  assert (E : firstn y c = firstn x c ++ firstn (y - x) (skipn x c)).
  { rewrite <- (firstn_skipn x (firstn y c)) at 1. rewrite firstn_firstn, Nat.min_l by exact H.
    rewrite skipn_firstn_comm. reflexivity. }
  rewrite E, byte_len_app. replace (byte_len (firstn x c) + byte_len (firstn (y - x) (skipn x c)) - byte_len (firstn x c))
    with (byte_len (firstn (y - x) (skipn x c))) by lia.
  apply first_at.
Qed.

Fixpoint pieces_of (c : str) (last : nat) (irs : list (nat * nat)) : list (bool * str) :=
  match irs with
  | [] => [(false, skipn last c)]
  | r :: irs => (false, cut c (last, fst r)) :: (true, cut c r) :: pieces_of c (snd r) irs
  end.

Inductive ordered : nat -> list (nat * nat) -> Prop :=
| ord_nil n : ordered n []
| ord_cons n a b l : n <= a -> a < b -> ordered b l -> ordered n ((a, b) :: l).

Lemma show_pieces_ok c : forall irs last, ordered last irs ->
  show_pieces (encode c) (byte_len (firstn last c)) (map (bytes_at c) irs)
  = Ok (map (fun t => (fst t, encode (snd t))) (pieces_of c last irs)).
Proof.
  induction irs as [|[a b] irs IH]; intros last H.
  - cbn [map show_pieces]. pose proof (str_from_encode (firstn last c) (skipn last c)) as X. rewrite firstn_skipn in X. rewrite X. reflexivity.
  - inversion H as [|? ? ? ? H1 H2 H3]; subst. cbn [map show_pieces bytes_at fst snd].
    rewrite str_range_cut by exact H1. rewrite str_range_cut by lia. cbn [bind].
    rewrite (IH b H3). reflexivity.
Qed.

Lemma cut_skip c x y : x <= y -> skipn x c = cut c (x, y) ++ skipn y c.
Proof.
  intros H. unfold cut. cbn [fst snd]. rewrite <- (firstn_skipn (y - x) (skipn x c)) at 1. f_equal.
  rewrite skipn_skipn. f_equal. lia.
Qed.

Lemma pieces_text c : forall irs last, ordered last irs -> shown_text (pieces_of c last irs) = skipn last c.
Proof.
  induction irs as [|[a b] irs IH]; intros last H.
  - cbn. apply app_nil_r.
  - inversion H as [|? ? ? ? H1 H2 H3]; subst. unfold shown_text in *. cbn [pieces_of map concat fst snd].
    rewrite (IH b H3), <- cut_skip by lia. symmetry. apply cut_skip. exact H1.
Qed.

Lemma pieces_marked c : forall irs last, highlighted_texts (pieces_of c last irs) = map (cut c) irs.
Proof.
  induction irs as [|r irs IH]; intros last; [reflexivity|].
  unfold highlighted_texts in *. cbn [pieces_of filter map fst snd]. rewrite IH. reflexivity.
Qed.

(** Ranges on boundaries come from ranges of characters. *)
Lemma char_ranges c rs : Forall (fun r => boundary c (fst r) /\ boundary c (snd r) /\ fst r < snd r <= byte_len c) rs ->
  StronglySorted (fun r r' => snd r < fst r') rs -> forall last, (match rs with [] => True | r :: _ => byte_len (firstn last c) <= fst r end) ->
  exists irs, rs = map (bytes_at c) irs /\ ordered last irs /\ Forall (fun r => snd r <= length c) irs.
Proof.
  induction 1 as [|r rs (B1 & B2 & L) H IH]; intros Hs last Hl.
  - exists []. repeat constructor.
  - apply StronglySorted_inv in Hs as [Hs Hr]. destruct B1 as [i Hi], B2 as [j Hj].
    assert (Ej : exists k, k <= length c /\ snd r = byte_len (firstn k c)).
    { destruct (Nat.le_gt_cases j (length c)); [exists j; auto|]. exists (length c). split; [lia|].
      rewrite Hj, firstn_all, firstn_all2 by lia. reflexivity. }
    destruct Ej as (k & Hk & Ek).
    assert (Hik : i < k).
    { destruct (Nat.lt_ge_cases i k); [assumption|]. pose proof (byte_len_firstn_le c k i ltac:(assumption)). lia. }
    assert (Ei : exists a, last <= a < k /\ fst r = byte_len (firstn a c)).
    { destruct (Nat.le_gt_cases last i); [exists i; lia|].
      pose proof (byte_len_firstn_lt c i last ltac:(lia) ltac:(lia)). lia. }
    destruct Ei as (a & Ha & Ea).
    destruct (IH Hs k) as (irs & E & O & F).
    { destruct rs as [|r' rs]; [exact I|]. inversion Hr; subst. lia. }
    exists ((a, k) :: irs). split; [|split].
    + cbn [map]. unfold bytes_at at 1. cbn [fst snd]. rewrite <- Ea, <- Ek, <- E. destruct r; reflexivity.
    + constructor; [lia|lia|exact O].
    + constructor; [exact Hk|exact F].
Qed.

Definition chars_in (irs : list (nat * nat)) : list nat := flat_map (fun r => seq (fst r) (snd r - fst r)) irs.

Lemma skipn_at {A} (x : A) : forall l a, nth_error l a = Some x -> skipn a l = x :: skipn (S a) l.
Proof.
  induction l as [|y l IH]; intros [|a] H; try discriminate H.
  - injection H as ->. reflexivity.
  - cbn [skipn]. apply IH. exact H.
Qed.

Lemma cut_chars c a b : a <= b -> b <= length c -> cut c (a, b) = map (fun j => nth j c 0%N) (seq a (b - a)).
Proof.
  intros H1 H2. unfold cut. cbn [fst snd]. remember (b - a) as n eqn:En. assert (H : a + n <= length c) by lia. clear En H1 H2 b.
  revert a H. induction n as [|n IH]; intros a H; [reflexivity|].
  destruct (nth_error c a) as [x|] eqn:E; [|apply nth_error_None in E; lia].
  cbn [seq map]. rewrite <- (IH (S a)) by lia. rewrite (nth_error_nth _ _ 0%N E), (skipn_at x c a E). reflexivity.
Qed.

Lemma marked_chars c irs last : ordered last irs -> Forall (fun r => snd r <= length c) irs ->
  concat (map (cut c) irs) = map (fun j => nth j c 0%N) (chars_in irs).
Proof.
  intros O. induction O as [|n a b l H1 H2 O IH]; intros F; [reflexivity|]. inversion F; subst.
  unfold chars_in in *. cbn [map concat flat_map fst snd] in *. rewrite map_app, <- IH by assumption. f_equal.
  apply cut_chars; [lia|assumption].
Qed.

Lemma ordered_chars irs last : ordered last irs -> StronglySorted lt (chars_in irs) /\ Forall (le last) (chars_in irs).
Proof.
  intros O. induction O as [|n a b l H1 H2 O [IH1 IH2]]; [split; constructor|].
  unfold chars_in in *. cbn [flat_map fst snd]. split.
  - assert (K : forall m s, s + m <= b -> StronglySorted lt (seq s m ++ flat_map (fun r => seq (fst r) (snd r - fst r)) l)).
    { induction m as [|m IHm]; intros s Hs; [exact IH1|]. cbn [seq app]. constructor; [apply IHm; lia|].
      apply Forall_app. split.
      - apply Forall_forall. intros x Hx. apply in_seq in Hx. lia.
      - eapply Forall_impl; [|exact IH2]. cbv beta. lia. }
    apply K. lia.
  - apply Forall_app. split.
    + apply Forall_forall. intros x Hx. apply in_seq in Hx. lia.
    + eapply Forall_impl; [|exact IH2]. cbv beta. lia.
Qed.

Lemma lt_sorted_unique : forall l l', StronglySorted lt l -> StronglySorted lt l' -> (forall x, In x l <-> In x l') -> l = l'.
Proof.
  induction l as [|x l IH]; intros [|y l'] H H' E.
  - reflexivity.
  - destruct (proj2 (E y) (or_introl eq_refl)).
  - destruct (proj1 (E x) (or_introl eq_refl)).
  - apply StronglySorted_inv in H as [H Hx]. apply StronglySorted_inv in H' as [H' Hy].
    rewrite Forall_forall in Hx, Hy.
    assert (x = y) as ->.
    { destruct (proj1 (E x) (or_introl eq_refl)) as [|I1]; [congruence|].
      destruct (proj2 (E y) (or_introl eq_refl)) as [|I2]; [congruence|]. specialize (Hx _ I2). specialize (Hy _ I1). lia. }
    f_equal. apply IH; [assumption..|]. intros z. split; intros Hz.
    + destruct (proj1 (E z) (or_intror Hz)) as [->|]; [|assumption]. specialize (Hx _ Hz). lia.
    + destruct (proj2 (E z) (or_intror Hz)) as [->|]; [|assumption]. specialize (Hy _ Hz). lia.
Qed.

Lemma first_byte c j : j < length c -> byte_of_char c j (byte_len (firstn j c)).
Proof. intros H. split; [exact H|]. pose proof (byte_len_firstn_lt c j (S j) ltac:(lia) H). lia. Qed.

Lemma byte_one_char c j j' b : byte_of_char c j b -> byte_of_char c j' b -> j = j'.
Proof.
  intros [H1 H2] [H3 H4]. destruct (Nat.lt_trichotomy j j') as [H|[H|H]]; [|exact H|].
  - pose proof (byte_len_firstn_le c (S j) j' H). lia.
  - pose proof (byte_len_firstn_le c (S j') j H). lia.
Qed.

Lemma covered_in c irs last b : ordered last irs -> Forall (fun r => snd r <= length c) irs ->
  (covered (map (bytes_at c) irs) b <-> exists j, In j (chars_in irs) /\ byte_of_char c j b).
Proof.
  intros O F. revert O. revert last. induction F as [|[x y] irs Hy F IH]; intros last O.
  - split; [intros (? & [] & _)|intros (? & [] & _)].
  - inversion O as [|? ? ? ? O1 O2 O3]; subst. cbn [snd] in Hy. specialize (IH _ O3).
    unfold chars_in in *. cbn [flat_map fst snd map]. split.
    + intros (r & [<-|Hr] & Hb).
      * cbn [bytes_at fst snd] in Hb.
        assert (K : forall n, n <= length c -> b < byte_len (firstn n c) -> exists j, j < n /\ byte_of_char c j b).
        { induction n as [|n IHn]; intros Hn Hbn; [cbn in Hbn; lia|].
          destruct (Nat.lt_ge_cases b (byte_len (firstn n c))) as [L|L].
          - destruct (IHn ltac:(lia) L) as (j & Hj & Hbj). exists j. split; [lia|exact Hbj].
          - exists n. split; [lia|]. split; [lia|]. split; [exact L|exact Hbn]. }
        destruct (K y Hy ltac:(lia)) as (j & Hj & Hbj). exists j. split; [|exact Hbj].
        apply in_or_app. left. apply in_seq. destruct (Nat.le_gt_cases x j) as [|Hlt]; [lia|].
        destruct Hbj as [_ Hbj]. pose proof (byte_len_firstn_le c (S j) x Hlt). lia.
      * destruct (proj1 IH) as (j & Hj & Hbj); [exists r; auto|]. exists j. split; [apply in_or_app; right; exact Hj|exact Hbj].
    + intros (j & Hj & Hbj). apply in_app_or in Hj as [Hj|Hj].
      * apply in_seq in Hj. exists (bytes_at c (x, y)). split; [left; reflexivity|]. cbn [bytes_at fst snd].
        destruct Hbj as [_ Hbj]. pose proof (byte_len_firstn_le c x j ltac:(lia)).
        pose proof (byte_len_firstn_le c (S j) y ltac:(lia)). lia.
      * destruct (proj2 IH) as (r & Hr & Hb); [exists j; auto|]. exists r. split; [right; exact Hr|exact Hb].
Qed.

Section WithUnicode.
Context {UC : unicode}.

Lemma display : forall a o m q c d m' rs,
  metric_reached a o m -> query_reached q ->
  metric_distance_and_ranges m q c [] = Ok (d, m', rs) ->
  exists ts, shows c rs ts /\ shown_text ts = c
    /\ length (highlighted_texts ts) = length rs /\ Forall (fun t => t <> []) (highlighted_texts ts)
    /\ forall js, StronglySorted lt js -> Forall (fun j => j < length c) js ->
         (forall b, covered rs b <-> exists j, In j js /\ byte_of_char c j b) ->
         concat (highlighted_texts ts) = map (fun j => nth j c 0%N) js.
Proof.
  intros a o m q c d m' rs Hm Hq E.
  destruct (c04_canonical _ _ _ _ _ _ _ _ _ Hm Hq E) as (new & En & [_ Hs]).
  destruct (c05_boundaries _ _ _ _ _ _ _ _ _ Hm Hq E) as (new' & En' & Hb).
  cbn [app] in En, En'. subst rs. rewrite <- En' in Hb. clear new' En'.
  destruct (char_ranges c new Hb Hs 0) as (irs & -> & O & F).
  { destruct new; [exact I|]. cbn. lia. }
  exists (pieces_of c 0 irs). rewrite !pieces_marked. split; [apply (show_pieces_ok c irs 0 O)|].
  split; [apply (pieces_text c irs 0 O)|]. split; [rewrite !map_length; reflexivity|]. split.
  - apply Forall_map. clear -O F. induction O as [|n x y l H1 H2 O IH]; [constructor|]. inversion F as [|? ? F1 F2]; subst.
    constructor; [|apply IH; exact F2]. cbn [snd] in F1. rewrite cut_chars by lia. replace (y - x) with (S (y - x - 1)) by lia. discriminate.
  - intros js Hjs Hj Hc. rewrite (marked_chars c irs 0 O F). f_equal.
    destruct (ordered_chars irs 0 O) as [O' _]. apply lt_sorted_unique; [exact O'|exact Hjs|].
    intros j. split; intros Hin.
    + assert (Hlt : j < length c).
      { unfold chars_in in Hin. apply in_flat_map in Hin as (r & Hr & Hin). rewrite Forall_forall in F. specialize (F _ Hr).
        apply in_seq in Hin. lia. }
      pose proof (first_byte c j Hlt) as B. destruct (proj1 (Hc (byte_len (firstn j c)))) as (j' & Hj' & B').
      { apply (covered_in c irs 0 _ O F). exists j. auto. }
      rewrite (byte_one_char _ _ _ _ B B'). exact Hj'.
    + rewrite Forall_forall in Hj. pose proof (first_byte c j (Hj _ Hin)) as B.
      destruct (proj1 (covered_in c irs 0 _ O F) (proj2 (Hc (byte_len (firstn j c))) (ex_intro _ j (conj Hin B)))) as (j' & Hj' & B').
      rewrite (byte_one_char _ _ _ _ B B'). exact Hj'.
Qed.

Lemma shows_unique c rs ts ts' : shows c rs ts -> shows c rs ts' -> ts = ts'.
Proof.
  unfold shows. intros H H'. rewrite H in H'. injection H' as H'. clear H. revert ts' H'.
  induction ts as [|[b t] ts IH]; intros [|[b' t'] ts'] H; try discriminate H; [reflexivity|].
  injection H as -> E H. rewrite (IH _ H). rewrite <- (decode_encode t), <- (decode_encode t'). cbn [snd] in E. rewrite E. reflexivity.
Qed.

Lemma c99_display : forall a o m q c d m' rs,
  metric_reached a o m -> query_reached q ->
  metric_distance_and_ranges m q c [] = Ok (d, m', rs) ->
  exists ts, shows c rs ts /\ shown_text ts = c
    /\ length (highlighted_texts ts) = length rs /\ Forall (fun t => t <> []) (highlighted_texts ts).
Proof.
  intros a o m q c d m' rs Hm Hq E. destruct (display _ _ _ _ _ _ _ _ Hm Hq E) as (ts & H1 & H2 & H3 & H4 & _).
  exists ts. auto.
Qed.

Lemma aligned_texts (R : char -> char -> Prop) text c js : Forall2 (fun x j => exists y, nth_error c j = Some y /\ R x y) text js ->
  Forall2 R text (map (fun j => nth j c 0%N) js) /\ Forall (fun j => j < length c) js.
Proof.
  induction 1 as [|x j text js (y & Hy & Hxy) _ [IH1 IH2]]; [split; constructor|]. split.
  - cbn [map]. constructor; [|exact IH1]. rewrite (nth_error_nth _ _ 0%N Hy). exact Hxy.
  - constructor; [|exact IH2]. apply nth_error_Some. congruence.
Qed.

Lemma display_aligned a o m q c d m' rs ts (R : char -> char -> Prop) text js :
  metric_reached a o m -> query_reached q -> metric_distance_and_ranges m q c [] = Ok (d, m', rs) -> shows c rs ts ->
  alignment R text c js -> (forall b, covered rs b <-> exists j, In j js /\ byte_of_char c j b) ->
  Forall2 R text (concat (highlighted_texts ts)).
Proof.
  intros Hm Hq E Hs [S F] Hc. destruct (display _ _ _ _ _ _ _ _ Hm Hq E) as (ts' & H1 & _ & _ & _ & H).
  rewrite (shows_unique _ _ _ _ Hs H1). destruct (aligned_texts _ _ _ _ F) as [F1 F2]. rewrite (H js S F2 Hc). exact F1.
Qed.

Lemma c99_fuzzy_v1 : forall o m text q c d m' rs ts,
  metric_reached AlgoV1 o m -> query_reached q -> fuzzy_query text q ->
  metric_distance_and_ranges m q c [] = Ok (Some d, m', rs) -> shows c rs ts ->
  Forall2 (agreement o text) text (concat (highlighted_texts ts)).
Proof.
  intros o m text q c d m' rs ts Hm Hq Hf E Hs. destruct (c06_v1_highlights _ _ _ _ _ _ _ _ _ Hm Hf E) as (new & js & En & A & Hc).
  cbn [app] in En. subst new. eapply display_aligned; eassumption.
Qed.

Lemma c99_fuzzy_v2 : forall o m text q c d m' rs ts,
  metric_reached AlgoV2 o m -> query_reached q -> fuzzy_query text q -> text <> [] ->
  metric_distance_and_ranges m q c [] = Ok (Some d, m', rs) ->
  (26 * (Z.of_nat (length text) - 1) + 10 < into_score d)%Z -> shows c rs ts ->
  Forall2 (agreement o text) text (concat (highlighted_texts ts)).
Proof.
  intros o m text q c d m' rs ts Hm Hq Hf Ht E Hd Hs.
  destruct (c09_v2_whole_query_partial _ _ _ _ _ _ _ _ _ Hm Hf Ht E Hd) as (new & js & En & A & Hc).
  cbn [app] in En. subst new. eapply display_aligned; eassumption.
Qed.

Lemma shows_one pre mid post : shows (pre ++ mid ++ post) [(byte_len pre, byte_len pre + byte_len mid)]
  [(false, pre); (true, mid); (false, post)].
Proof.
  unfold shows. cbn [show_pieces]. rewrite <- byte_len_app.
  pose proof (boundary_prefix pre (mid ++ post)) as B1. pose proof (boundary_prefix (pre ++ mid) post) as B2.
  rewrite <- app_assoc in B2.
  assert (B0 : is_char_boundary (encode (pre ++ mid ++ post)) 0 = true) by apply (boundary_prefix [] (pre ++ mid ++ post)).
  unfold str_range. rewrite B0, B1, B2. cbn [Nat.leb andb bind skipn]. rewrite Nat.sub_0_r, firstn_encode.
  rewrite skipn_encode, byte_len_app. rewrite (proj2 (Nat.leb_le _ _)) by lia. cbn [andb bind].
  replace (byte_len pre + byte_len mid - byte_len pre) with (byte_len mid) by lia. rewrite firstn_encode.
  rewrite <- byte_len_app. pose proof (str_from_encode (pre ++ mid) post) as F. rewrite <- app_assoc in F. rewrite F. reflexivity.
Qed.

Lemma c99_term : forall a o m ps s k text c d rs ts,
  metric_reached a o m -> parse_spec s = [[Term false k text]] -> k <> KFuzzy ->
  find_ranges ps m s c [] = Ok (Some d, rs) -> shows c rs ts ->
  exists pre mid post, ts = [(false, pre); (true, mid); (false, post)] /\ Forall2 (agreement o text) text mid.
Proof.
  intros a o m ps s k text c d rs ts Hm Hs Hk E Ht.
  assert (F : exists pre mid post, found_at o text c pre mid post [] (Ok (Some d, rs))).
  { destruct k; [congruence|..].
    - destruct (c21_exact a o m ps s text c [] Hm Hs) as [[_ H]|H]; rewrite E in H; [discriminate H|exact H].
    - destruct (c22_place a o m ps s text c [] d rs Hm Hs E) as (n & mid & post & H & _). eauto.
    - destruct (c23_place a o m ps s text c [] d rs Hm Hs E) as (pre & mid & n & H & _). eauto.
    - destruct (c24_place a o m ps s text c [] d rs Hm Hs E) as (n & mid & k & H & _). eauto. }
  destruct F as (pre & mid & post & Hc & F & X). injection X as _ ->. exists pre, mid, post. split; [|exact F].
  eapply shows_unique; [exact Ht|]. rewrite Hc. apply shows_one.
Qed.
End WithUnicode.
