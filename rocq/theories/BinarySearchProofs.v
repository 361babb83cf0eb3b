(** The loops of slice::binary_search_by in BinarySearch.v meet the contract used in MatchedRanges.v, with the number of
    comparisons counted in CostRanges.v. *)
From Coq Require Import Arith.
From Verif Require Import Prelude MatchedRanges CostRanges BinarySearch.
From Verif Require Import PreludeProofs MatchedRangesProofs.
Local Open Scope nat_scope.

(** The starts increase from each range to the next. *)
Definition increasing (l : list range) : Prop :=
  forall i j x y, i < j -> nth_error l i = Some x -> nth_error l j = Some y -> fst x < fst y.

Lemma chain_fst lo own i x : chain lo own -> nth_error own i = Some x -> lo <= fst x.
Proof.
  revert lo i. induction own as [|[s e] t IH]; intros lo i H E; [destruct i; discriminate|].
  destruct H as (H1 & H2 & H3). destruct i as [|i]; cbn [nth_error] in E.
  - injection E as <-. exact H1.
  - pose proof (IH _ _ H3 E). lia.
Qed.

Lemma chain_increasing lo own : chain lo own -> increasing own.
Proof.
  revert lo. induction own as [|[s e] t IH]; intros lo H i j x y L Ex Ey; [destruct i; discriminate|].
  destruct H as (H1 & H2 & H3). destruct i as [|i], j as [|j]; try lia; cbn [nth_error] in Ex, Ey.
  - injection Ex as <-. pose proof (chain_fst _ _ _ _ H3 Ey). cbn [fst]. lia.
  - apply (IH _ H3 i j); [lia|assumption..].
Qed.

Lemma increasing_tail x l : increasing (x :: l) -> increasing l.
Proof. intros H i j a b L Ea Eb. apply (H (S i) (S j)); [lia|assumption..]. Qed.

Lemma search_found l a : forall k i x, increasing l -> nth_error l i = Some x -> fst x = a ->
  search_start l a k = inl (k + i).
Proof.
  induction l as [|r t IH]; intros k i x H E Ea; [destruct i; discriminate|]. cbn [search_start].
  destruct i as [|i]; cbn [nth_error] in E.
  - injection E as ->. rewrite (proj2 (Nat.eqb_eq _ _) Ea). f_equal. lia.
  - pose proof (H 0 (S i) r x ltac:(lia) eq_refl E).
    destruct (Nat.eqb_spec (fst r) a); [lia|]. destruct (Nat.ltb_spec a (fst r)); [lia|].
    rewrite (IH (S k) i x (increasing_tail _ _ H) E Ea). f_equal. lia.
Qed.

Lemma search_missing l a : forall k i, i <= length l ->
  (forall j x, j < i -> nth_error l j = Some x -> fst x < a) ->
  (forall j x, i <= j -> nth_error l j = Some x -> a < fst x) ->
  search_start l a k = inr (k + i).
Proof.
  induction l as [|r t IH]; intros k i L Hl Hr; cbn [search_start length] in *.
  - f_equal. lia.
  - destruct i as [|i].
    + pose proof (Hr 0 r ltac:(lia) eq_refl).
      destruct (Nat.eqb_spec (fst r) a); [lia|]. destruct (Nat.ltb_spec a (fst r)); [|lia]. f_equal. lia.
    + pose proof (Hl 0 r ltac:(lia) eq_refl).
      destruct (Nat.eqb_spec (fst r) a); [lia|]. destruct (Nat.ltb_spec a (fst r)); [lia|].
      rewrite (IH (S k) i).
      * f_equal. lia.
      * lia.
      * intros j x Lj E. apply (Hl (S j)); [lia|exact E].
      * intros j x Lj E. apply (Hr (S j)); [lia|exact E].
Qed.

Lemma compare_at_ok l a i : i < length l ->
  exists x, nth_error l i = Some x /\ compare_at l a i = Ok (Nat.compare (fst x) a).
Proof.
  intros L. destruct (nth_error l i) as [x|] eqn:E.
  - exists x. split; [reflexivity|]. unfold compare_at, idx. rewrite E. reflexivity.
  - apply nth_error_None in E. lia.
Qed.

Lemma log2_up_half n k : 2 <= n -> 1 <= k -> 2 * k <= n + 1 -> S (Nat.log2_up k) <= Nat.log2_up n.
Proof.
  intros Hn Hk H. destruct (Nat.log2_up n) as [|b] eqn:E.
  - apply Nat.log2_up_null in E. lia.
  - apply le_n_S. apply Nat.log2_up_le_pow2; [lia|]. pose proof (Nat.log2_up_spec n ltac:(lia)) as [_ P].
    rewrite E in P. cbn [Nat.pow] in P. lia.
Qed.

Lemma probes_half n k : 1 <= n -> 2 * k <= n -> S (probes k) <= probes n.
Proof.
  intros Hn H. unfold probes. destruct n as [|n]; [lia|]. destruct k as [|k]; [lia|].
  pose proof (log2_up_half (S n) (S k)). lia.
Qed.

(** * Rust 1.52 to 1.81 *)

Lemma halving_loop_ok l a : increasing l -> forall fuel left right,
  right - left < fuel -> left <= right -> right <= length l ->
  (forall j x, j < left -> nth_error l j = Some x -> fst x < a) ->
  (forall j x, right <= j -> nth_error l j = Some x -> a < fst x) ->
  fst (halving_loop fuel l a left right) = Ok (search_start l a 0)
  /\ snd (halving_loop fuel l a left right) <= probes (right - left).
Proof.
  intros Hi. induction fuel as [|fuel IH]; intros left right F L1 L2 Hl Hr; [lia|]. cbn [halving_loop].
  destruct (Nat.ltb_spec left right) as [L|L].
  - pose proof (Nat.div_mod (right - left) 2 ltac:(lia)) as Hm.
    pose proof (Nat.mod_upper_bound (right - left) 2 ltac:(lia)) as Hu.
    set (half := (right - left) / 2) in *. clearbody half. set (rest := (right - left) mod 2) in *. clearbody rest. cbv zeta.
    destruct (compare_at_ok l a (left + half) ltac:(lia)) as (x & Ex & ->).
    destruct (Nat.compare_spec (fst x) a) as [C|C|C].
    + cbn [fst snd]. split; [f_equal; symmetry; exact (search_found l a 0 _ x Hi Ex C)|].
      pose proof (probes_half (right - left) 0). lia.
    + destruct (IH (left + half + 1) right) as [I1 I2]; [lia..| |exact Hr|].
      { intros j y Lj Ey. destruct (Nat.eq_dec j (left + half)) as [->|N]; [congruence|].
        pose proof (Hi j (left + half) y x ltac:(lia) Ey Ex). lia. }
      destruct (halving_loop fuel l a (left + half + 1) right) as [r n]. cbn [fst snd] in *. split; [exact I1|].
      pose proof (probes_half (right - left) (right - (left + half + 1))). lia.
    + destruct (IH left (left + half)) as [I1 I2]; [lia..|exact Hl| |].
      { intros j y Lj Ey. destruct (Nat.eq_dec j (left + half)) as [->|N]; [congruence|].
        pose proof (Hi (left + half) j x y ltac:(lia) Ex Ey). lia. }
      destruct (halving_loop fuel l a left (left + half)) as [r n]. cbn [fst snd] in *. split; [exact I1|].
      pose proof (probes_half (right - left) (left + half - left)). lia.
  - cbn [fst snd]. split; [|lia]. f_equal. symmetry. apply (search_missing l a 0 left); [lia|exact Hl|].
    intros j x Lj. apply Hr. lia.
Qed.

Lemma halving_ok l a : increasing l ->
  fst (halving l a) = Ok (search_start l a 0) /\ snd (halving l a) <= probes (length l).
Proof.
  intros H. unfold halving. pose proof (halving_loop_ok l a H (S (length l)) 0 (length l)) as X.
  rewrite Nat.sub_0_r in X. apply X; [lia..|].
  intros j x Lj E. rewrite (proj2 (nth_error_None l j)) in E by lia. discriminate.
Qed.

(** * Since Rust 1.82 *)

Lemma branchless_loop_ok l a : increasing l -> forall fuel base size,
  1 <= size -> size <= fuel -> base + size <= length l ->
  (forall j x, j < base -> nth_error l j = Some x -> fst x < a) ->
  (forall j x, base + size <= j -> nth_error l j = Some x -> a < fst x) ->
  exists i, fst (branchless_loop fuel l a base size) = Ok i /\ i < length l
  /\ (forall j x, j < i -> nth_error l j = Some x -> fst x < a)
  /\ (forall j x, i < j -> nth_error l j = Some x -> a < fst x)
  /\ snd (branchless_loop fuel l a base size) <= Nat.log2_up size.
Proof.
  intros Hi. induction fuel as [|fuel IH]; intros base size S1 F L Hl Hr; [lia|]. cbn [branchless_loop].
  destruct (Nat.ltb_spec 1 size) as [S2|S2].
  - pose proof (Nat.div_mod size 2 ltac:(lia)) as Hm.
    pose proof (Nat.mod_upper_bound size 2 ltac:(lia)) as Hu.
    set (half := size / 2) in *. clearbody half. set (rest := size mod 2) in *. clearbody rest. cbv zeta.
    destruct (compare_at_ok l a (base + half) ltac:(lia)) as (x & Ex & ->).
    set (base' := match Nat.compare (fst x) a with Gt => base | _ => base + half end).
    destruct (IH base' (size - half)) as (i & I1 & I2 & I3 & I4 & I5); try lia.
    { subst base'. destruct (Nat.compare (fst x) a); lia. }
    { subst base'. destruct (Nat.compare_spec (fst x) a) as [C|C|C]; [..|exact Hl].
      all: intros j y Lj Ey; pose proof (Hi j (base + half) y x Lj Ey Ex); lia. }
    { subst base'. destruct (Nat.compare_spec (fst x) a) as [C|C|C]; intros j y Lj Ey.
      1,2: apply (Hr j y); [lia|exact Ey].
      destruct (Nat.eq_dec j (base + half)) as [->|N]; [congruence|].
      pose proof (Hi (base + half) j x y ltac:(lia) Ex Ey). lia. }
    exists i. destruct (branchless_loop fuel l a base' (size - half)) as [r n]. cbn [fst snd] in *.
    repeat split; try assumption. pose proof (log2_up_half size (size - half)). lia.
  - exists base. cbn [fst snd]. repeat split; [lia|exact Hl| |lia].
    intros j x Lj. apply Hr. lia.
Qed.

Lemma branchless_ok l a : increasing l ->
  fst (branchless l a) = Ok (search_start l a 0) /\ snd (branchless l a) <= probes (length l).
Proof.
  intros Hi. unfold branchless, probes. destruct l as [|r0 l0]; [split; [reflexivity|cbn; lia]|].
  set (l := r0 :: l0) in *. change (match length l with O => 0 | S _ => S (Nat.log2_up (length l)) end) with (S (Nat.log2_up (length l))).
  assert (L : 1 <= length l) by (subst l; cbn [length]; lia). clearbody l.
  destruct (branchless_loop_ok l a Hi (length l) 0 (length l)) as (i & I1 & I2 & I3 & I4 & I5); try lia.
  { intros j x Lj E. rewrite (proj2 (nth_error_None l j)) in E by lia. discriminate. }
  destruct (branchless_loop (length l) l a 0 (length l)) as [r n]. cbn [fst snd] in *. subst r. cbn [bind]. split; [|lia].
  destruct (compare_at_ok l a i I2) as (x & Ex & ->). cbn [bind]. f_equal. symmetry.
  destruct (Nat.compare_spec (fst x) a) as [C|C|C].
  - exact (search_found l a 0 i x Hi Ex C).
  - apply (search_missing l a 0 (i + 1)); [lia|..]; intros j y Lj Ey.
    + destruct (Nat.eq_dec j i) as [->|N]; [congruence|]. apply (I3 j y); [lia|exact Ey].
    + apply (I4 j y); [lia|exact Ey].
  - apply (search_missing l a 0 i); [lia|exact I3|]. intros j y Lj Ey.
    destruct (Nat.eq_dec j i) as [->|N]; [congruence|]. apply (I4 j y); [lia|exact Ey].
Qed.

(** * Together *)

Lemma search_start_where l a : forall k, increasing l ->
  match search_start l a k with
  | inl i => k <= i /\ exists x, nth_error l (i - k) = Some x /\ fst x = a
  | inr i => k <= i <= k + length l
             /\ (forall j x, k + j < i -> nth_error l j = Some x -> fst x < a)
             /\ (forall j x, i <= k + j -> nth_error l j = Some x -> a < fst x)
  end.
Proof.
  induction l as [|r t IH]; intros k H; cbn [search_start].
  - repeat split; cbn [length]; try lia; intros [|j] x _ E; discriminate.
  - destruct (Nat.eqb_spec (fst r) a) as [E|N].
    + split; [lia|]. exists r. rewrite Nat.sub_diag. split; [reflexivity|exact E].
    + destruct (Nat.ltb_spec a (fst r)) as [L|L].
      * repeat split; try lia. intros [|j] x _ E; cbn [nth_error] in E; [injection E as <-; exact L|].
        pose proof (H 0 (S j) r x ltac:(lia) eq_refl E). lia.
      * specialize (IH (S k) (increasing_tail _ _ H)). destruct (search_start t a (S k)) as [i|i].
        -- destruct IH as (I1 & x & I2 & I3). split; [lia|]. exists x. replace (i - k) with (S (i - S k)) by lia.
           split; assumption.
        -- destruct IH as (I1 & I2 & I3). cbn [length]. repeat split; try lia.
           ++ intros [|j] x Lj E; cbn [nth_error] in E; [injection E as <-; lia|]. apply (I2 j x); [lia|exact E].
           ++ intros [|j] x Lj E; cbn [nth_error] in E; [injection E as <-; lia|]. apply (I3 j x); [lia|exact E].
Qed.

Lemma c80_binary_search : forall loop own start,
  loop = halving \/ loop = branchless ->
  (forall i j x y, i < j -> nth_error own i = Some x -> nth_error own j = Some y -> fst x < fst y) ->
  exists found, fst (loop own start) = Ok found /\ found = search_start own start 0
  /\ snd (loop own start) <= probes (length own)
  /\ match found with
     | inl i => exists x, nth_error own i = Some x /\ fst x = start
     | inr i => i <= length own
                /\ (forall j x, j < i -> nth_error own j = Some x -> fst x < start)
                /\ (forall j x, i <= j -> nth_error own j = Some x -> start < fst x)
     end.
Proof.
  intros loop own start Hl Hi. exists (search_start own start 0).
  pose proof (search_start_where own start 0 Hi) as W.
  assert (X : fst (loop own start) = Ok (search_start own start 0) /\ snd (loop own start) <= probes (length own)).
  { destruct Hl as [->| ->]; [apply halving_ok|apply branchless_ok]; exact Hi. }
  destruct X as [X1 X2]. repeat split; [exact X1|exact X2|]. destruct (search_start own start 0) as [i|i].
  - destruct W as (_ & x & E & F). rewrite Nat.sub_0_r in E. exists x. split; assumption.
  - destruct W as (L & W1 & W2). split; [lia|]. split; intros j x; [apply (W1 j x)|apply (W2 j x)].
Qed.

(** In MatchedRanges::insert the ranges are in order: what the call wrote so far never overlaps. *)
Lemma insert_searches pre own start : chain 0 own ->
  forall loop, loop = halving \/ loop = branchless ->
  binary_search_by (mk pre own) start = fst (loop own start).
Proof.
  intros H loop Hl. destruct (c80_binary_search loop own start Hl (chain_increasing _ _ H)) as (f & -> & -> & _).
  unfold binary_search_by. rewrite own_mk. reflexivity.
Qed.

(** * No comparison is left out of the count *)

Lemma log2_up_double n k : 2 <= n -> n <= 2 * k -> 2 * k <= n + 1 -> Nat.log2_up n = S (Nat.log2_up k).
Proof.
  intros Hn H1 H2. pose proof (log2_up_half n k Hn ltac:(lia) H2).
  assert (Nat.log2_up n <= S (Nat.log2_up k)); [|lia].
  rewrite <- Nat.log2_up_double by lia. apply Nat.log2_up_le_mono. lia.
Qed.

Lemma branchless_loop_steps l a : forall fuel base size,
  1 <= size -> size <= fuel -> base + size <= length l ->
  snd (branchless_loop fuel l a base size) = Nat.log2_up size.
Proof.
  induction fuel as [|fuel IH]; intros base size S1 F L; [lia|]. cbn [branchless_loop].
  destruct (Nat.ltb_spec 1 size) as [S2|S2].
  - pose proof (Nat.div_mod size 2 ltac:(lia)) as Hm.
    pose proof (Nat.mod_upper_bound size 2 ltac:(lia)) as Hu.
    set (half := size / 2) in *. clearbody half. set (rest := size mod 2) in *. clearbody rest. cbv zeta.
    destruct (compare_at_ok l a (base + half) ltac:(lia)) as (x & Ex & ->).
    set (base' := match Nat.compare (fst x) a with Gt => base | _ => base + half end).
    assert (B : base' + (size - half) <= length l) by (subst base'; destruct (Nat.compare (fst x) a); lia).
    specialize (IH base' (size - half) ltac:(lia) ltac:(lia) B).
    destruct (branchless_loop fuel l a base' (size - half)) as [r n]. cbn [snd] in *. subst n.
    symmetry. apply log2_up_double; lia.
  - replace size with 1 by lia. reflexivity.
Qed.

Lemma branchless_steps l a : snd (branchless l a) = probes (length l).
Proof.
  unfold branchless, probes. destruct l as [|r0 l0]; [reflexivity|]. set (l := r0 :: l0).
  pose proof (branchless_loop_steps l a (length l) 0 (length l)) as H.
  destruct (branchless_loop (length l) l a 0 (length l)) as [r n]. cbn [snd] in *.
  change (length (r0 :: l0)) with (length l). rewrite H; subst l; cbn [length]; auto; lia.
Qed.

Lemma halving_loop_steps l a : forall fuel left right i,
  right - left < fuel -> left <= right -> right <= length l ->
  (fst (halving_loop fuel l a left right) = Ok (inr i) ->
   right - left + 1 < 2 ^ S (snd (halving_loop fuel l a left right)))
  /\ (fst (halving_loop fuel l a left right) = Ok (inl i) -> 1 <= snd (halving_loop fuel l a left right)).
Proof.
  induction fuel as [|fuel IH]; intros left right i F L1 L2; [lia|]. cbn [halving_loop].
  destruct (Nat.ltb_spec left right) as [L|L].
  - pose proof (Nat.div_mod (right - left) 2 ltac:(lia)) as Hm.
    pose proof (Nat.mod_upper_bound (right - left) 2 ltac:(lia)) as Hu.
    set (half := (right - left) / 2) in *. clearbody half. set (rest := (right - left) mod 2) in *. clearbody rest. cbv zeta.
    destruct (compare_at_ok l a (left + half) ltac:(lia)) as (x & Ex & ->).
    destruct (Nat.compare (fst x) a).
    + cbn [fst snd]. split; [intros H; discriminate H|lia].
    + destruct (IH (left + half + 1) right i ltac:(lia) ltac:(lia) L2) as [I1 _].
      destruct (halving_loop fuel l a (left + half + 1) right) as [r n]. cbn [fst snd] in *. split; [|lia].
      intros H. specialize (I1 H). cbn [Nat.pow] in *. lia.
    + destruct (IH left (left + half) i ltac:(lia) ltac:(lia) ltac:(lia)) as [I1 _].
      destruct (halving_loop fuel l a left (left + half)) as [r n]. cbn [fst snd] in *. split; [|lia].
      intros H. specialize (I1 H). cbn [Nat.pow] in *. lia.
  - cbn [fst snd Nat.pow]. split; [lia|intros H; discriminate H].
Qed.

Lemma c80_binary_search_steps : forall own start,
  snd (branchless own start) = probes (length own)
  /\ (forall i, fst (halving own start) = Ok (inr i) -> length own + 1 < 2 ^ S (snd (halving own start)))
  /\ (forall i, fst (halving own start) = Ok (inl i) -> 1 <= snd (halving own start)).
Proof.
  intros own start. split; [apply branchless_steps|].
  pose proof (fun i => halving_loop_steps own start (S (length own)) 0 (length own) i) as H.
  rewrite Nat.sub_0_r in H. unfold halving. split; intros i; apply (H i); lia.
Qed.
