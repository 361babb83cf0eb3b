(** Bounds on the iterations counted by CostRanges.v. *)
From Verif Require Import Prelude Chars Utils Candidate MatchedRanges Query Scoring Slab Fzf FzfV1 FzfV2 Api Cost CostRanges.
From Verif Require Import PreludeProofs CharsProofs MatchedRangesProofs CandidateProofs ScoreProofs V1Proofs V2Proofs V2Fuzzy CostProofs CostBounds CostRangesProofs.
Local Open Scope nat_scope.

(** * One program costs at most so much more than another *)

Lemma extra_bind A B B' (t : timed A) (k : A -> timed B) (k' : A -> timed B') e :
  (forall a, fst t = Ok a -> snd (k a) <= snd (k' a) + e) -> snd (tbind t k) <= snd (tbind t k') + e.
Proof.
  intros H. unfold tbind. destruct (fst t) as [a| |] eqn:E; cbn [snd]; rewrite ?steps_spend; [specialize (H a eq_refl)|..]; lia.
Qed.

Lemma extra_first A B B' (t : timed A) (k : A -> timed B) (k' : timed B') x e :
  snd t <= x -> (forall a, fst t = Ok a -> snd (k a) <= snd k' + e) -> snd (tbind t k) <= snd k' + (x + e).
Proof.
  intros Hx H. unfold tbind. destruct (fst t) as [a| |] eqn:E; cbn [snd]; rewrite ?steps_spend; [specialize (H a eq_refl)|..]; lia.
Qed.

Lemma steps_first A B (t : timed A) (f : A -> timed B) : snd t <= snd (tbind t f).
Proof. unfold tbind. destruct (fst t); rewrite ?steps_spend; cbn [snd]; lia. Qed.

(** * Inserting a range *)

Lemma probes_le n : probes n <= n.
Proof. unfold probes. destruct n as [|n]; [lia|]. pose proof (Nat.log2_up_lt_lin (S n)). lia. Qed.

Lemma probes_mono n m : n <= m -> probes n <= probes m.
Proof.
  intros H. unfold probes. destruct n as [|n], m as [|m]; try lia. apply le_n_S. apply Nat.log2_up_le_mono. exact H.
Qed.

Lemma mr_set_size m i r m' : mr_set m i r = Ok m' ->
  length (mr_ranges m') = length (mr_ranges m) /\ mr_initial_len m' = mr_initial_len m.
Proof.
  unfold mr_set. intros H. apply ok_bind in H as (l & E & H). injection H as <-. apply set_idx_len in E as [E _]. auto.
Qed.

Lemma insert_steps m r : let k := length (mr_ranges m) - mr_initial_len m in snd (mr_insert_tm m r) <= probes k + k.
Proof.
  intros k. unfold mr_insert_tm, binary_search_by_tm. apply steps_bind; [rewrite steps_spend, steps_lift; fold k; lia|].
  intros [i|i] _.
  - apply steps_pure. intros [lhs rhs] _. apply steps_pure. intros rng _. cbv zeta. destruct (_ <=? _); [rewrite steps_lift; lia|].
    destruct (nth_error rhs 0) as [nr|]; [|rewrite steps_lift; lia]. destruct (_ <=? _); [|rewrite steps_lift; lia].
    apply steps_pure. intros m' E. apply mr_set_size in E as [E1 E2]. unfold mr_remove_tm. rewrite steps_spend, steps_lift, E1, E2. lia.
  - destruct (i =? 0).
    + destruct (mr_get m 0) as [fr|]; [|rewrite steps_lift; lia]. destruct (_ <=? _); [rewrite steps_lift; lia|].
      unfold mr_insert_at_tm. rewrite steps_spend, steps_lift. lia.
    + apply steps_pure. intros len _. destruct (i =? len).
      * apply steps_pure. intros lr _. destruct (_ <=? _); [|rewrite steps_lift; lia]. apply steps_pure. intros l _. rewrite steps_lift. lia.
      * apply steps_pure. intros [lhs rhs] _. apply steps_pure. intros pi _. apply steps_pure. intros pr _. apply steps_pure. intros nr _.
        destruct (_ <=? _), (_ <=? _).
        -- apply steps_pure. intros m' E. apply mr_set_size in E as [E1 E2]. unfold mr_remove_tm. rewrite steps_spend, steps_lift, E1, E2. lia.
        -- destruct (_ <? _); rewrite steps_lift; lia.
        -- rewrite steps_lift. lia.
        -- unfold mr_insert_at_tm. rewrite steps_spend, steps_lift. lia.
Qed.

(** Behind all others nothing has to be moved. *)
Lemma append_steps pre own a b : chain 0 own -> Forall (fun r => snd r <= a) own ->
  snd (mr_insert_tm (mk pre own) (a, b)) <= probes (length own).
Proof.
  intros Hc Hb. unfold mr_insert_tm, binary_search_by_tm. cbn [mr_ranges mr_initial_len mk]. rewrite app_length.
  replace (length pre + length own - length pre) with (length own) by lia. rewrite <- (Nat.add_0_r (probes _)).
  apply steps_bind; [rewrite steps_spend, steps_lift; lia|]. rewrite fst_spend, fst_lift. unfold binary_search_by.
  change (MkRanges (pre ++ own) (length pre)) with (mk pre own). rewrite own_mk. cbn [bind fst].
  pose proof (chain_bound _ _ Hc) as B.
  assert (L : Forall (fun r => fst r < a) own).
  { apply Forall_forall. intros r Hr. rewrite Forall_forall in B, Hb. specialize (B r Hr). specialize (Hb r Hr). lia. }
  pose proof (search_start_spec own a 0 _ Hc) as S. intros x E. injection E as <-.
  destruct (search_start own a 0) as [k|k].
  - destruct S as (l & e & r & -> & _). apply Forall_app in L as [_ L]. inversion L as [|? ? H _]. cbn in H. lia.
  - destruct S as (l & r & -> & -> & _ & Hr). destruct r as [|[s e] r].
    + rewrite app_nil_r in *. cbn [Nat.add]. destruct (length l =? 0) eqn:El.
      * apply Nat.eqb_eq in El. destruct l; [|discriminate]. unfold mr_get. cbn [mr_ranges mk mr_initial_len].
        rewrite app_nil_r. replace (nth_error pre (length pre + 0)) with (@None range); [rewrite steps_lift; lia|].
        symmetry. apply nth_error_None. lia.
      * rewrite mr_len_mk. apply steps_pure. intros len E. injection E as <-. rewrite Nat.eqb_refl.
        apply steps_pure. intros lr _. destruct (_ <=? _); [|rewrite steps_lift; lia]. apply steps_pure. intros l' _. rewrite steps_lift. lia.
    + apply Forall_app in L as [_ L]. inversion L as [|? ? H _]. cbn in H, Hr. lia.
Qed.

Lemma ins_length own a b : length (ins own a b) <= S (length own).
Proof.
  induction own as [|[s e] t IH]; cbn [ins length]; [lia|]. destruct t as [|[s' e'] t']; ins_cases; cbn [length] in *; lia.
Qed.

(** Separate ranges below [B]. *)
Definition tidy (B : nat) (own : list range) : Prop :=
  chain 0 own /\ Forall (fun r => fst r <= B /\ snd r <= B) own.

Lemma tidy_nil B : tidy B [].
Proof. split; [exact I|constructor]. Qed.

Lemma tidy_length B own : tidy B own -> 2 * length own <= B + 1.
Proof.
  intros [H F]. assert (G : forall lo, chain lo own -> own = [] \/ lo + 2 * length own <= B + 1).
  { clear H. induction F as [|[s e] t [_ He] _ IH]; intros lo H; [left; reflexivity|right]. cbn [fst snd] in He.
    destruct H as (H1 & H2 & H3). cbn [length]. destruct (IH _ H3) as [->|H4]; cbn [length]; lia. }
  destruct (G 0 H) as [->|G']; [cbn; lia|lia].
Qed.

Lemma tidy_ins B own a b : tidy B own -> a < b <= B -> tidy B (ins own a b).
Proof. intros [H F] Hab. split; [apply ins_chain; [lia..|exact H]|]. apply (ins_ends own a b (fun x => x <= B)); [lia..|exact F]. Qed.

Lemma tidy_inserts B rs : proper rs -> Forall (fun r => snd r <= B) rs -> forall own, tidy B own -> tidy B (inserts own rs).
Proof.
  unfold proper. intros H F. induction rs as [|r rs IH]; intros own Ho; [exact Ho|]. inversion H; inversion F; subst. cbn [inserts fold_left].
  apply IH; [assumption..|]. apply tidy_ins; [exact Ho|lia].
Qed.

Lemma tidy_insert_steps B pre own r : tidy B own -> snd (mr_insert_tm (mk pre own) r) <= B + 1.
Proof.
  intros H. apply tidy_length in H. etransitivity; [apply insert_steps|]. cbn [mk mr_ranges mr_initial_len]. rewrite app_length.
  pose proof (probes_le (length pre + length own - length pre)). lia.
Qed.

Lemma insert_ok pre own a b m : chain 0 own -> fst (mr_insert_tm (mk pre own) (a, b)) = Ok m -> m = mk pre (ins own a b).
Proof. intros H. rewrite mr_insert_same, (mr_insert_spec _ _ _ _ 0) by exact H. congruence. Qed.

(** * Byte offsets *)

Lemma offset_steps c i : snd (to_byte_offset_tm c i) <= i.
Proof. unfold to_byte_offset_tm. rewrite steps_spend, steps_lift. destruct c; lia. Qed.

Lemma range_steps c a b : snd (to_byte_range_tm c a b) <= b.
Proof. unfold to_byte_range_tm. rewrite steps_spend, steps_lift. destruct c; lia. Qed.

Section WithUnicode.
Context {UC : unicode}.

(** * compute_score *)

(** The score is computed as without ranges. *)
Lemma score_loop_extra eq s brs B pre : forall chars own st st',
  cs_pattern_char st = cs_pattern_char st' -> cs_pattern_chars st = cs_pattern_chars st' ->
  cs_ranges st = mk pre own -> tidy B own -> brs + cs_byte_offset st + byte_len chars <= B ->
  snd (compute_score_ranges_loop_tm eq s brs chars st)
  <= snd (compute_score_loop_tm eq s chars st') + S (length (cs_pattern_chars st)) * (B + 1).
Proof.
  induction chars as [|c chars IH]; intros own st st' E1 E2 Er Ht Hb; cbn [compute_score_ranges_loop_tm compute_score_loop_tm].
  { rewrite !steps_lift. lia. }
  cbv zeta. rewrite !steps_spend, <- E1. rewrite byte_len_cons in Hb. pose proof (len_utf8_pos c) as Lc.
  destruct (eq (cs_pattern_char st) c).
  - set (x := if cs_consecutive st =? 0 then _ else _). set (y := if cs_consecutive st' =? 0 then _ else _).
    destruct x as [x1 x2], y as [y1 y2]. rewrite <- E2, Er.
    set (start := brs + cs_byte_offset st) in *. rewrite <- Nat.add_assoc. apply Nat.add_le_mono_l.
    cbn [Nat.mul]. apply extra_first; [apply tidy_insert_steps, Ht|].
    intros r' E. apply insert_ok in E; [|apply Ht]. subst r'. destruct (cs_pattern_chars st) as [|nx rest]; [rewrite !steps_lift; lia|].
    etransitivity; [eapply (IH (ins own start (start + len_utf8 c)) _)|]; cbn [cs_pattern_char cs_pattern_chars cs_ranges cs_byte_offset].
    4: apply tidy_ins; [exact Ht|lia].
    all: try reflexivity. all: try reflexivity. subst start. lia.
  - rewrite <- Nat.add_assoc. apply Nat.add_le_mono_l.
    match goal with |- snd (compute_score_ranges_loop_tm _ _ _ _ ?x) <= snd (compute_score_loop_tm _ _ _ ?y) + _ =>
      specialize (IH own x y) end.
    cbn [cs_pattern_char cs_pattern_chars cs_ranges cs_byte_offset] in IH. apply IH; [reflexivity|exact E2|exact Er|exact Ht|lia].
Qed.

(** In a fresh buffer all characters are appended. *)
Lemma score_loop_append eq s brs pre : forall chars own st st',
  cs_pattern_char st = cs_pattern_char st' -> cs_pattern_chars st = cs_pattern_chars st' ->
  cs_ranges st = mk pre own -> tidy (brs + cs_byte_offset st) own ->
  snd (compute_score_ranges_loop_tm eq s brs chars st)
  <= snd (compute_score_loop_tm eq s chars st')
     + S (length (cs_pattern_chars st)) * probes (length own + length (cs_pattern_chars st)).
Proof.
  induction chars as [|c chars IH]; intros own st st' E1 E2 Er Ht; cbn [compute_score_ranges_loop_tm compute_score_loop_tm].
  { rewrite !steps_lift. lia. }
  cbv zeta. rewrite !steps_spend, <- E1. pose proof (len_utf8_pos c) as Lc.
  destruct (eq (cs_pattern_char st) c).
  - set (x := if cs_consecutive st =? 0 then _ else _). set (y := if cs_consecutive st' =? 0 then _ else _).
    destruct x as [x1 x2], y as [y1 y2]. rewrite <- E2, Er.
    set (start := brs + cs_byte_offset st) in *. rewrite <- Nat.add_assoc. apply Nat.add_le_mono_l.
    cbn [Nat.mul]. apply extra_first.
    { etransitivity; [apply append_steps; [apply Ht|]|apply probes_mono; lia].
      eapply Forall_impl; [|apply Ht]. cbv beta. intros r [_ H]. exact H. }
    intros r' E. apply insert_ok in E; [|apply Ht]. subst r'. destruct (cs_pattern_chars st) as [|nx rest]; [rewrite !steps_lift; lia|].
    etransitivity; [eapply (IH (ins own start (start + len_utf8 c)) _)|]; cbn [cs_pattern_char cs_pattern_chars cs_ranges cs_byte_offset].
    4: rewrite Nat.add_assoc; fold start; apply tidy_ins; [|lia]; split; [apply Ht|]; eapply Forall_impl; [|apply Ht]; cbv beta; intros; lia.
    4: apply Nat.add_le_mono_l; cbn [length]; apply Nat.mul_le_mono_l, probes_mono; pose proof (ins_length own start (start + len_utf8 c)); lia.
    all: reflexivity.
  - rewrite <- Nat.add_assoc. apply Nat.add_le_mono_l.
    match goal with |- snd (compute_score_ranges_loop_tm _ _ _ _ ?x) <= snd (compute_score_loop_tm _ _ _ ?y) + _ =>
      specialize (IH own x y) end.
    cbn [cs_pattern_char cs_pattern_chars cs_ranges cs_byte_offset] in IH. apply IH; [reflexivity|exact E2|exact Er|].
    rewrite Nat.add_assoc. split; [apply Ht|]. eapply Forall_impl; [|apply Ht]. cbv beta. intros. lia.
Qed.

Lemma compute_score_window p c a b eq s r sc r' : compute_score false p c a b eq s r = Ok (sc, r') ->
  a <= b <= cand_char_len c /\ r' = r.
Proof.
  unfold compute_score. intros H. apply ok_bind in H as (brs & _ & H). apply ok_bind in H as (pc & _ & H).
  destruct (p_text p); [discriminate|]. apply ok_bind in H as (sl & E & H). apply cand_slice_range_inv in E as [_ E]. split; [lia|].
  apply ok_bind in H as (chars & _ & H). revert H. set (st := MkCs _ _ _ _ _ _ _ _ _ _).
  change r with (cs_ranges st). clearbody st. clear. revert st. induction chars as [|x chars IH]; intros st; cbn [compute_score_loop].
  - intros H. injection H as _ <-. reflexivity.
  - cbv zeta. destruct (eq _ x); [|intros H; apply IH in H; exact H].
    set (z := if cs_consecutive st =? 0 then _ else _). destruct z as [z1 z2]. cbn [bind].
    destruct (cs_pattern_chars st); [intros H; injection H as _ <-; reflexivity|]. intros H. apply IH in H. exact H.
Qed.

Lemma slice_bytes c a b c' : cand_slice_range c a b = Ok c' ->
  cand_slice c' = firstn (b - a) (skipn a (cand_slice c)) /\ a <= b <= length (cand_slice c).
Proof.
  intros H. pose proof (cand_slice_range_inv _ _ _ _ H) as [_ L]. rewrite cand_char_len_spec in L.
  rewrite cand_slice_range_spec in H by lia. injection H as <-. rewrite cand_slice_with. split; [reflexivity|lia].
Qed.

Lemma window_bytes l a b : a <= b -> byte_len (firstn a l) + byte_len (firstn (b - a) (skipn a l)) = byte_len (firstn b l).
Proof.
  intros H. rewrite <- byte_len_app. f_equal. rewrite <- (firstn_skipn a (firstn b l)).
  rewrite firstn_firstn, skipn_firstn_comm. replace (Nat.min a b) with a by lia. reflexivity.
Qed.

Lemma firstn_bytes l k : byte_len (firstn k l) <= byte_len l.
Proof. rewrite <- (firstn_skipn k l) at 2. rewrite byte_len_app. lia. Qed.

Lemma compute_score_extra p c a b eq s pre own : cand_ok c -> tidy (byte_len (cand_slice c)) own ->
  snd (compute_score_ranges_tm p c a b eq s (mk pre own))
  <= snd (compute_score_tm p c a b eq s (mk pre own)) + (a + p_char_len p * (byte_len (cand_slice c) + 1)).
Proof.
  intros Hc Ht. set (B := byte_len (cand_slice c)) in *. unfold compute_score_ranges_tm.
  apply extra_first; [apply offset_steps|]. unfold to_byte_offset_tm. rewrite fst_spend, fst_lift. intros brs Eb.
  unfold compute_score_tm. apply extra_bind. intros pc _. unfold p_char_len. destruct (p_text p) as [|x xs]; [rewrite !steps_lift; lia|].
  apply extra_bind. rewrite fst_lift. intros sl Es. apply slice_bytes in Es as [Es Ea].
  apply extra_bind. rewrite fst_lift, cand_chars_spec. intros chars E. injection E as <-.
  rewrite to_byte_offset_spec in Eb by (auto; lia). injection Eb as <-.
  match goal with |- snd (compute_score_ranges_loop_tm _ _ ?k _ ?x) <= snd (compute_score_loop_tm _ _ ?l ?y) + _ =>
    apply (score_loop_extra eq s k B pre l own x y) end; [reflexivity..|exact Ht|].
  cbn [cs_byte_offset]. rewrite Es, Nat.add_0_r, window_bytes by lia. apply firstn_bytes.
Qed.

Lemma compute_score_append p c a b eq s pre :
  snd (compute_score_ranges_tm p c a b eq s (mk pre []))
  <= snd (compute_score_tm p c a b eq s (mk pre [])) + (a + p_char_len p * probes (p_char_len p - 1)).
Proof.
  unfold compute_score_ranges_tm. apply extra_first; [apply offset_steps|]. intros brs _.
  unfold compute_score_tm. apply extra_bind. intros pc _. unfold p_char_len. destruct (p_text p) as [|x xs]; [rewrite !steps_lift; lia|].
  apply extra_bind. intros sl _. apply extra_bind. intros chars _.
  cbn [length]. rewrite Nat.sub_succ, Nat.sub_0_r.
  match goal with |- snd (compute_score_ranges_loop_tm _ _ ?k _ ?x) <= snd (compute_score_loop_tm _ _ ?l ?y) + _ =>
    apply (score_loop_append eq s k pre l [] x y) end; [reflexivity..|apply tidy_nil].
Qed.

(** * The other kinds of terms *)

Lemma finish_extra p c a b eq s B pre own : tidy B own ->
  snd (finish_match_ranges_tm p c a b eq s (mk pre own))
  <= snd (finish_match_tm p c a b eq s (mk pre own)) + (cand_char_len c + (B + 1)).
Proof.
  intros Ht. unfold finish_match_ranges_tm, finish_match_tm. apply extra_bind. rewrite compute_score_same. intros [sc r'] E.
  apply compute_score_window in E as [E ->]. rewrite steps_lift. cbn [Nat.add].
  apply steps_bind; [etransitivity; [apply range_steps|lia]|]. intros r _. rewrite <- (Nat.add_0_r (B + 1)).
  apply steps_bind; [apply tidy_insert_steps, Ht|]. intros r' _. rewrite steps_lift. lia.
Qed.

Lemma exact_extra p c eq s B pre own : tidy B own ->
  snd (exact_match_ranges_tm p c eq s (mk pre own))
  <= snd (exact_match_tm p c eq s (mk pre own)) + (cand_char_len c + (B + 1)).
Proof.
  intros Ht. unfold exact_match_ranges_tm, exact_match_tm. destruct (p_is_empty p); [rewrite !steps_lift; lia|].
  apply extra_bind. intros st _. destruct (negb _); [rewrite !steps_lift; lia|apply finish_extra, Ht].
Qed.

Lemma prefix_extra p c eq s B pre own : tidy B own ->
  snd (prefix_match_ranges_tm p c eq s (mk pre own))
  <= snd (prefix_match_tm p c eq s (mk pre own)) + (cand_char_len c + (B + 1)).
Proof.
  intros Ht. unfold prefix_match_ranges_tm, prefix_match_tm. destruct (p_is_empty p); [rewrite !steps_lift; lia|].
  apply extra_bind. intros [ign|] _; [|rewrite !steps_lift; lia]. apply extra_bind. intros chars _. apply extra_bind.
  intros [[[|] rc]|] _; [apply finish_extra, Ht|rewrite !steps_lift; lia..].
Qed.

Lemma suffix_extra p c eq s B pre own : tidy B own ->
  snd (suffix_match_ranges_tm p c eq s (mk pre own))
  <= snd (suffix_match_tm p c eq s (mk pre own)) + (cand_char_len c + (B + 1)).
Proof.
  intros Ht. unfold suffix_match_ranges_tm, suffix_match_tm. destruct (p_is_empty p); [rewrite !steps_lift; lia|].
  apply extra_bind. intros [ign|] _; [|rewrite !steps_lift; lia]. apply extra_bind. intros u _. apply extra_bind. intros sl _.
  apply extra_bind. intros chars _. apply extra_bind. intros [[[|] rc]|] _; [|rewrite !steps_lift; lia..].
  apply extra_bind. intros st _. apply finish_extra, Ht.
Qed.

Lemma equal_extra p c eq s B pre own : tidy B own ->
  snd (equal_match_ranges_tm p c eq s (mk pre own))
  <= snd (equal_match_tm p c eq s (mk pre own)) + (cand_char_len c + (B + 1)).
Proof.
  intros Ht. unfold equal_match_ranges_tm, equal_match_tm. destruct (p_is_empty p); [rewrite !steps_lift; lia|].
  apply extra_bind. intros [ign|] _; [|rewrite !steps_lift; lia]. destruct (_ =? _); [rewrite !steps_lift; lia|].
  apply extra_bind. intros [ign'|] _; [|rewrite !steps_lift; lia]. apply extra_bind. intros u _.
  destruct (_ <? _); [rewrite !steps_lift; lia|]. apply extra_bind. intros sl _.
  apply extra_bind. intros chars _. apply extra_bind. intros [[rp rc]|] _; [|rewrite !steps_lift; lia].
  destruct (zip_rest rp rc) as [[|] [|]]; [apply finish_extra, Ht|rewrite !steps_lift; lia..].
Qed.

(** * FzfV1 *)

Lemma backward_le c o : forall ps p e x, fst (backward_loop_tm c o p ps e) = Ok x -> x <= e.
Proof.
  induction ps as [|q ps IH]; intros p e x; cbn [backward_loop_tm]; rewrite fst_spend, fst_tbind; intros H;
    apply ok_bind in H as (f & E & H); rewrite fst_tbind in H; apply ok_bind in H as (y & E2 & H);
    (destruct f as [z|]; [|discriminate]); injection E2 as E2; subst z; apply last_from_found in E as [_ E].
  - rewrite fst_lift in H. injection H as H. lia.
  - apply IH in H. lia.
Qed.

Lemma v1_window p c o e a :
  fst (forward_pass_tm p c o) = Ok (Some e) -> fst (backward_pass_tm p c e o) = Ok a -> a <= cand_char_len c.
Proof.
  unfold forward_pass_tm, backward_pass_tm. destruct (p_text p) as [|x xs]; [discriminate|]. intros H1.
  apply forward_loop_steps in H1; [|lia]. destruct (rev (x :: xs)) as [|y ys]; [discriminate|]. intros H2. apply backward_le in H2. lia.
Qed.

Lemma v1_extra m p c pre own : cand_ok c -> tidy (byte_len (cand_slice c)) own ->
  snd (v1_fuzzy_ranges_tm m p c (mk pre own))
  <= snd (v1_fuzzy_tm m p c (mk pre own)) + (cand_char_len c + p_char_len p * (byte_len (cand_slice c) + 1)).
Proof.
  intros Hc Ht. unfold v1_fuzzy_ranges_tm, v1_fuzzy_tm. cbv zeta. apply extra_bind. intros [e|] E1; [|rewrite !steps_lift; lia].
  apply extra_bind. intros a E2. pose proof (v1_window _ _ _ _ _ E1 E2) as W.
  pose proof (compute_score_extra p c a e (o_char_eq (opts_new (is_sensitive (v1_case_sensitivity m) p) (v1_candidate_normalization m)))
    (v1_scoring_scheme m) pre own Hc Ht) as X. rewrite <- Nat.add_0_r.
  set (t := compute_score_tm _ _ _ _ _ _ _) in *. set (t' := compute_score_ranges_tm _ _ _ _ _ _ _) in *.
  apply steps_bind.
  - etransitivity; [exact X|]. apply Nat.add_le_mono; [apply steps_first|lia].
  - intros [x y] _. rewrite steps_lift. lia.
Qed.

Lemma v1_append m p c pre :
  snd (v1_fuzzy_ranges_tm m p c (mk pre []))
  <= snd (v1_fuzzy_tm m p c (mk pre [])) + (cand_char_len c + p_char_len p * probes (p_char_len p - 1)).
Proof.
  unfold v1_fuzzy_ranges_tm, v1_fuzzy_tm. cbv zeta. apply extra_bind. intros [e|] E1; [|rewrite !steps_lift; lia].
  apply extra_bind. intros a E2. pose proof (v1_window _ _ _ _ _ E1 E2) as W.
  pose proof (compute_score_append p c a e (o_char_eq (opts_new (is_sensitive (v1_case_sensitivity m) p) (v1_candidate_normalization m)))
    (v1_scoring_scheme m) pre) as X. rewrite <- Nat.add_0_r.
  set (t := compute_score_tm _ _ _ _ _ _ _) in *. set (t' := compute_score_ranges_tm _ _ _ _ _ _ _) in *.
  apply steps_bind.
  - etransitivity; [exact X|]. apply Nat.add_le_mono; [apply steps_first|lia].
  - intros [x y] _. rewrite steps_lift. lia.
Qed.

(** * FzfV2 *)

Lemma first_gap_len k : forall col row ps pen row' a b, first_row_gap k col row ps pen = Ok (row', a, b) -> length row' = length row.
Proof.
  induction k as [|k IH]; intros col row ps pen row' a b; cbn [first_row_gap].
  - intros H. injection H as <- _ _. reflexivity.
  - cbv zeta. intros H. apply ok_bind in H as (r & E & H). apply set_idx_len in E as [E _]. apply IH in H. lia.
Qed.

Lemma first_loop_len s ms : forall st st', first_row_loop s ms st = Ok st' ->
  length (fr_scores st') = length (fr_scores st) /\ cv_base (fr_cv st') = cv_base (fr_cv st).
Proof.
  induction ms as [|x ms IH]; intros st st'; cbn [first_row_loop].
  - intros H. injection H as <-. auto.
  - intros H. apply ok_bind in H as ([[row a] pen] & E1 & H). apply first_gap_len in E1. cbv zeta in H.
    apply ok_bind in H as (cons & _ & H). apply ok_bind in H as ([b cv] & E2 & H). apply bonus_at_base in E2.
    apply ok_bind in H as (row' & E3 & H). apply set_idx_len in E3 as [E3 _].
    destruct (fr_max_score st <? _)%Z; apply IH in H; cbn [fr_scores fr_cv] in H; destruct H; split; congruence.
Qed.

Lemma first_row_shape a b ch cv s r cr cv' mx cell : score_first_row a b ch cv s = Ok (r, cr, cv', mx, cell) ->
  length r = length a /\ cv_base cv' = cv_base cv.
Proof.
  unfold score_first_row. intros H. apply ok_bind in H as (st & E1 & H). apply first_loop_len in E1 as [E1 E2].
  apply ok_bind in H as ([[row x] y] & E3 & H). apply first_gap_len in E3. injection H as <- _ <- _ _.
  cbn [fr_scores fr_cv] in *. split; congruence.
Qed.

Lemma gap_len k : forall col row pen row' a, row_gap k col row pen = Ok (row', a) -> length row' = length row.
Proof.
  induction k as [|k IH]; intros col row pen row' a; cbn [row_gap].
  - intros H. injection H as <- _. reflexivity.
  - intros H. apply ok_bind in H as (i & _ & H). apply ok_bind in H as (x & _ & H). cbv zeta in H.
    apply ok_bind in H as (r & E & H). apply set_idx_len in E as [E _]. apply IH in H. lia.
Qed.

Lemma loop_len s w i ps pc ms : forall st st', row_loop s w i ps pc ms st = Ok st' ->
  length (rr_scores st') = length (rr_scores st) /\ cv_base (rr_cv st') = cv_base (rr_cv st).
Proof.
  induction ms as [|x ms IH]; intros st st'; cbn [row_loop].
  - intros H. injection H as <-. auto.
  - intros H. apply ok_bind in H as ([row pen] & E1 & H). apply gap_len in E1. cbv zeta in H.
    apply ok_bind in H as (left & _ & H). apply ok_bind in H as (l & _ & H). apply ok_bind in H as (ul & _ & H).
    apply ok_bind in H as ([b cv] & E2 & H). apply bonus_at_base in E2. apply ok_bind in H as (c & _ & H).
    apply ok_bind in H as ([[b' co] cv'] & E3 & H).
    assert (E3' : cv_base cv' = cv_base cv).
    { destruct (1 <? c + 1); [|congruence]. apply ok_bind in E3 as (fi & _ & E3). apply ok_bind in E3 as ([fb cv1] & E4 & E3).
      apply bonus_at_base in E4. destruct (_ && _)%bool; congruence. }
    apply ok_bind in H as ([[su co'] cv''] & E4 & H).
    assert (E4' : cv_base cv'' = cv_base cv').
    { destruct (_ <? _)%Z; [|congruence]. apply ok_bind in E4 as ([fb cv1] & E5 & E4). apply bonus_at_base in E5. congruence. }
    destruct (rr_max_score st <? _)%Z; apply ok_bind in H as (cons & _ & H); apply ok_bind in H as (row' & E5 & H);
      apply set_idx_len in E5 as [E5 _]; apply IH in H; cbn [rr_scores rr_cv] in H; destruct H; split; congruence.
Qed.

Lemma put_row_len {A} (m : matrix A) i l : length l = m_width m -> (i + 1) * m_width m <= length (m_slice m) ->
  length (m_slice (put_row m i l)) = length (m_slice m).
Proof.
  intros H1 H2. unfold put_row. cbn [m_slice]. rewrite !app_length, firstn_length, skipn_length, H1. lia.
Qed.

Lemma remaining_shape k s p ms : forall i sc co cv mx cell sc' co' cv' mx' cell',
  score_remaining_rows k i s p ms sc co cv mx cell = Ok (sc', co', cv', mx', cell') ->
  length (m_slice sc') = length (m_slice sc) /\ m_width sc' = m_width sc /\ cv_base cv' = cv_base cv.
Proof.
  induction k as [|k IH]; intros i sc co cv mx cell sc' co' cv' mx' cell'; cbn [score_remaining_rows].
  - intros H. injection H as <- _ <- _ _. auto.
  - cbv zeta. intros H. apply ok_bind in H as (x & _ & H). apply ok_bind in H as (pi & _ & H).
    apply ok_bind in H as ([ps row] & E1 & H). apply ok_bind in H as ([pc cr] & _ & H). apply ok_bind in H as (fm & _ & H).
    apply ok_bind in H as (l & _ & H). apply ok_bind in H as (st & E2 & H). apply loop_len in E2 as [E2 E3].
    apply ok_bind in H as ([row' pen] & E4 & H). apply gap_len in E4. apply IH in H as (H1 & H2 & H3).
    cbn [rr_scores rr_cv] in *. rewrite H1, H2, H3, E3. split; [|split; reflexivity].
    unfold two_rows_mut in E1. apply ok_bind in E1 as (u & _ & E1). cbv zeta in E1. apply ok_bind in E1 as (pa & _ & E1).
    apply ok_bind in E1 as (pb & E5 & E1). apply slice_from_inv in E5 as [E5 E6]. apply ok_bind in E1 as (ra & _ & E1).
    apply ok_bind in E1 as (rb & E7 & E1). apply slice_to_inv in E7 as [E7 E8]. injection E1 as _ <-.
    apply put_row_len; [congruence|]. lia.
Qed.

Lemma v2_score_shape a b p cv ms s sc co cv' mx cell sv gv : v2_score a b p cv ms s = Ok (sc, co, cv', mx, cell, sv, gv) ->
  length (m_slice sc) = p_char_len p * cand_char_len (cv_base cv) /\ m_width sc = cand_char_len (cv_base cv) /\ cv_base cv' = cv_base cv.
Proof.
  unfold v2_score. cbv zeta. intros H. apply ok_bind in H as ([sc0 sl] & E1 & H). apply matrix_alloc_inv in E1 as (W1 & H1 & P1 & L1).
  apply ok_bind in H as ([co0 cl] & _ & H). apply ok_bind in H as (row & E2 & H). apply ok_bind in H as (cr & _ & H).
  apply ok_bind in H as (fi & _ & H). apply ok_bind in H as ([[[[r1 r2] cv1] mx1] cell1] & E3 & H).
  apply first_row_shape in E3 as [E3 E4]. apply ok_bind in H as ([[[[sc2 co2] cv2] mx2] cell2] & E5 & H).
  apply remaining_shape in E5 as (S1 & S2 & S3). injection H as <- _ <- _ _ _ _.
  rewrite S1, S2, S3, E4. split; [|split; [exact W1|reflexivity]]. rewrite <- L1. unfold row_mut in E2. cbv zeta in E2.
  apply slice_inv in E2. apply put_row_len; lia.
Qed.

Lemma back_steps B start c pre sc co : cand_ok c -> start + byte_len (cand_slice c) <= B ->
  forall fuel pm cell col row own, col <= cand_char_len c -> tidy B own ->
  snd (matched_ranges_loop_tm fuel sc co c start pm cell col row (mk pre own))
  <= fuel + S row * (cand_char_len c + (B + 1))
  /\ (length (m_slice sc) <= cell -> snd (matched_ranges_loop_tm fuel sc co c start pm cell col row (mk pre own)) <= 1).
Proof.
  intros Hc Hs. set (n := cand_char_len c). induction fuel as [|fuel IH]; intros pm cell col row own Hcol Ht;
    cbn [matched_ranges_loop_tm]; [rewrite !steps_lift; lia|]. cbv zeta. rewrite !steps_spend. split.
  - cbn [Nat.add]. apply le_n_S. apply steps_pure. intros sl _. apply steps_pure. intros su _. apply steps_pure. intros cons _.
    apply steps_pure. intros x _. destruct (_ && _)%bool.
    + replace (fuel + S row * (n + (B + 1))) with (n + (B + 1 + (fuel + row * (n + (B + 1))))) by lia.
      apply steps_bind; [etransitivity; [apply offset_steps|exact Hcol]|]. unfold to_byte_offset_tm. rewrite fst_spend, fst_lift.
      intros bo Eb. apply steps_pure. intros ch Ec. rewrite cand_char_spec in Ec.
      assert (En : nth_error (cand_slice c) col = Some ch).
      { unfold idx in Ec. destruct (nth_error (cand_slice c) col); [injection Ec as ->; reflexivity|discriminate]. }
      assert (Hl : col < length (cand_slice c)) by (apply nth_error_Some; congruence).
      rewrite to_byte_offset_spec in Eb by (auto; lia). injection Eb as <-.
      assert (Hb : byte_len (firstn col (cand_slice c)) + len_utf8 ch <= byte_len (cand_slice c)).
      { rewrite <- (byte_len_firstn_S _ _ _ En). apply firstn_bytes. }
      pose proof (len_utf8_pos ch). set (o := byte_len (firstn col (cand_slice c))) in *. clearbody o.
      apply steps_bind; [apply tidy_insert_steps, Ht|]. intros r E. apply insert_ok in E; [|apply Ht]. subst r.
      destruct (row =? 0) eqn:Er; cbn [orb]; [rewrite steps_lift; lia|]. destruct (col =? 0); [rewrite steps_lift; lia|].
      apply Nat.eqb_neq in Er.
      apply steps_pure. intros row' E1. apply steps_pure. intros cell' _. apply steps_pure. intros col' E2.
      assert (row' + 1 = row /\ col' <= col).
      { unfold usub in E1, E2. destruct (1 <=? row) eqn:L1; [|discriminate]. destruct (1 <=? col) eqn:L2; [|discriminate].
        injection E1 as <-. injection E2 as <-. lia. }
      destruct (IH ((1 <? cons) || match m_get_value co (down_right co cell) with None => false | Some x => 0 <? x end)%bool cell' col' row'
        (ins own (o + start) (o + start + len_utf8 ch))) as [IH' _]; [lia|apply tidy_ins; [exact Ht|lia]|].
      replace row with (S row') by lia. exact IH'.
    + destruct (col =? 0); [rewrite steps_lift; lia|]. apply steps_pure. intros cell' _. apply steps_pure. intros col' E2.
      unfold usub in E2. destruct (1 <=? col); [|discriminate]. injection E2 as <-. apply IH; [lia|exact Ht].
  - intros Hcell. cbn [Nat.add]. apply le_n_S. apply steps_pure. intros sl _. apply steps_pure. intros su _. apply steps_pure. intros cons _.
    apply steps_pure. intros x E. unfold m_index in E. apply idx_lt in E. lia.
Qed.

Lemma matched_steps B start c pre sc co cell own h : cand_ok c -> start + byte_len (cand_slice c) <= B -> tidy B own ->
  m_width sc = cand_char_len c -> length (m_slice sc) = h * cand_char_len c -> 1 <= h ->
  snd (matched_ranges_tm sc co cell c start (mk pre own)) <= S (cand_char_len c) + h * (cand_char_len c + (B + 1)).
Proof.
  intros Hc Hs Ht Hw Hl Hh. unfold matched_ranges_tm. apply steps_pure. intros col E1. apply steps_pure. intros row E2.
  unfold col_of, row_of in *. rewrite Hw in *. set (n := cand_char_len c) in *.
  destruct (0 <? n) eqn:E0; [|discriminate]. apply Nat.ltb_lt in E0. cbn [assert_ bind] in E1, E2. injection E1 as <-. injection E2 as <-.
  pose proof (Nat.mod_upper_bound cell n ltac:(lia)) as Hm.
  destruct (back_steps B start c pre sc co Hc Hs (S n) true cell (cell mod n) (cell / n) own) as [S1 S2]; [fold n; lia|exact Ht|].
  fold n in S1. destruct (Nat.le_gt_cases (length (m_slice sc)) cell) as [L|L].
  - specialize (S2 L). lia.
  - etransitivity; [exact S1|]. apply Nat.add_le_mono_l. apply Nat.mul_le_mono_r. rewrite Hl in L.
    apply Nat.div_lt_upper_bound; [lia|]. rewrite Nat.mul_comm. exact L.
Qed.

Lemma single_pos c s n ms : forall v k mx pos, Forall (fun x => x <= n) ms -> k <= n ->
  single_char_loop c s ms v k = Ok (mx, pos) -> pos <= n.
Proof.
  induction ms as [|x l IH]; intros v k mx pos Hf Hk; cbn [single_char_loop].
  - intros H. injection H as _ <-. exact Hk.
  - inversion Hf; subst. intros H. apply ok_bind in H as (a & _ & H). apply ok_bind in H as (b & _ & H). cbv zeta in H.
    destruct (v <? _)%Z; eapply IH; try exact H; assumption.
Qed.

Lemma single_extra ch c o s B pre own : tidy B own ->
  snd (fuzzy_single_char_ranges_tm ch c o s (mk pre own))
  <= snd (fuzzy_single_char_tm ch c o s (mk pre own)) + (cand_char_len c + (B + 1)).
Proof.
  intros Ht. unfold fuzzy_single_char_ranges_tm, fuzzy_single_char_tm. apply extra_bind. intros ms Em.
  apply extra_bind. intros [mx pos] E. destruct (mx =? 0)%Z eqn:E0; [rewrite !steps_lift; lia|]. rewrite steps_lift. cbn [Nat.add].
  assert (Hp : pos <= cand_char_len c).
  { unfold cand_matches_tm in Em. rewrite fst_spend, fst_lift in Em. injection Em as <-.
    destruct (matches_all c ch (o_is_case_sensitive o) (o_char_eq o)) as (f & Ef). rewrite Ef in E.
    pose proof (all_idx_ascending _ f (cand_slice c) 0) as [_ A]. rewrite cand_slice_len in A. cbn [Nat.add] in A.
    rewrite single_char_loop_same in E. eapply single_pos; [| |exact E]; [|lia].
    eapply Forall_impl; [|exact A]. cbn beta. intros; lia. }
  apply steps_bind; [etransitivity; [apply offset_steps|exact Hp]|]. intros bo _. apply steps_pure. intros x _.
  rewrite <- (Nat.add_0_r (B + 1)). apply steps_bind; [apply tidy_insert_steps, Ht|]. intros r _. rewrite steps_lift. lia.
Qed.

Lemma v2_extra m p c pre own : cand_ok c -> p_text p <> [] -> tidy (byte_len (cand_slice c)) own ->
  let n := cand_char_len c in
  snd (v2_fuzzy_ranges_tm m p c (mk pre own))
  <= snd (v2_fuzzy_tm m p c (mk pre own)) + (n + S n + p_char_len p * (n + (byte_len (cand_slice c) + 1))).
Proof.
  intros Hc Hp Ht n. set (B := byte_len (cand_slice c)) in *.
  assert (Hh : 1 <= p_char_len p) by (unfold p_char_len; destruct (p_text p); [congruence|cbn; lia]).
  unfold v2_fuzzy_ranges_tm, v2_fuzzy_tm. cbv zeta. destruct (p_char_len p =? 1) eqn:E1.
  - apply extra_bind. intros x _. rewrite <- Nat.add_0_r. apply steps_bind; [|intros [y z] _; rewrite steps_lift; lia].
    etransitivity; [apply (single_extra _ _ _ _ B), Ht|]. apply Nat.add_le_mono; [apply steps_first|]. fold n. nia.
  - apply extra_bind. rewrite v2_matches_same. intros [[[offs l]|] ind] Em; [|rewrite !steps_lift; lia].
    set (sens := is_sensitive (v2_case_sensitivity m) p) in *. set (norm := v2_candidate_normalization m) in *.
    assert (Hoffs : Forall (fun x => x < n) offs).
    { destruct (v2_matches_spec sens norm (s_indices (v2_slab_ m)) p c Hc Hp) as (sl & E & _). rewrite E in Em. injection Em as Em _.
      destruct (greedy _ _ _ _) as [fs|] eqn:G; [|discriminate]. destruct (last_col _ _ _ _); [|discriminate].
      injection Em as -> _. apply greedy_sound in G as [_ G]. unfold n. rewrite cand_char_len_spec. clear - G.
      induction G as [|x j ps js (_ & y & Hy & _) _ IH]; constructor; [|exact IH]. rewrite Nat.sub_0_r in Hy.
      apply nth_error_Some. congruence. }
    apply extra_bind. rewrite fst_lift. intros fo Ef.
    assert (Hfo : fo < n).
    { unfold idx in Ef. destruct (nth_error offs 0) as [x|] eqn:En; [|discriminate]. injection Ef as ->.
      apply nth_error_In in En. rewrite Forall_forall in Hoffs. apply Hoffs, En. }
    rewrite <- Nat.add_assoc. apply extra_first; [etransitivity; [apply offset_steps|lia]|].
    unfold to_byte_offset_tm. rewrite fst_spend, fst_lift. intros sb Esb.
    rewrite to_byte_offset_spec in Esb by (rewrite <- ?cand_char_len_spec; auto; fold n; lia). injection Esb as <-.
    apply extra_bind. intros ini _. apply extra_bind. rewrite fst_lift. intros base Eb.
    pose proof (cand_slice_range_inv _ _ _ _ Eb) as [Lb1 Lb2]. pose proof (slice_bytes _ _ _ _ Eb) as [Sb Sb2].
    assert (Hok : cand_ok base).
    { rewrite cand_slice_range_spec in Eb by lia. injection Eb as <-. apply cand_ok_with_slice, Hc. }
    apply extra_bind. intros [bo bv] _. apply extra_bind. intros mo _. apply extra_bind. rewrite v2_score_same.
    intros [[[[[[sc co] cv] score] cell] sv] cv'] Es. apply v2_score_shape in Es as (S1 & S2 & S3). cbn [cv_base] in *.
    rewrite steps_lift. cbn [Nat.add]. rewrite S3, <- Nat.add_0_r. apply steps_bind; [|intros r _; rewrite steps_lift; lia].
    etransitivity; [apply (matched_steps B _ base pre sc co cell own (p_char_len p))|]; auto.
    + rewrite Sb, window_bytes by lia. apply firstn_bytes.
    + fold n in Lb2. nia.
Qed.

End WithUnicode.
