(** Proofs of C98: what short texts allocate. *)
From Verif Require Import Prelude Chars Normalize Utils Candidate MatchedRanges Query Parser Scoring
  Slab Fzf FzfV1 FzfV2 Api Usage History
  Spec Sizes PreludeProofs ParserProofs ApiProofs Claims15.
Local Open Scope nat_scope.

Section Claims.
Context {UC : unicode}.

Lemma c98_new : forall w,
  bytes_of (buffers (metric_new AlgoV1)) (element_sizes w AlgoV1) = 512
  /\ bytes_of (buffers (metric_new AlgoV2)) (element_sizes w AlgoV2) = 512 + (256 + 256 * w + 128 * w + 2048).
Proof.
  intros w. unfold bytes_of, buffers, element_sizes, metric_new. cbn [combine map fst snd].
  split; [vm_compute; reflexivity|].
  change (length (v2_candidate_slab v2_new)) with 128. change (length (s_bonus (v2_slab_ v2_new))) with 128.
  change (length (s_consecutive (v2_slab_ v2_new))) with 256. change (length (s_indices (v2_slab_ v2_new))) with 128.
  change (length (s_scoring (v2_slab_ v2_new))) with 256. unfold list_sum. cbn [fold_right]. lia.
Qed.

Lemma c98_slab : let slab w := bytes_of (tl (buffers (metric_new AlgoV2))) (tl (element_sizes w AlgoV2)) in
  slab 8 * 4 = 21 * 1024 /\ slab 4 * 4 = 15 * 1024.
Proof. cbv zeta. split; apply Nat.eqb_eq; vm_compute; reflexivity. Qed.

Lemma fed_later a n h m : metric_fed a n h m -> later (metric_new a) m.
Proof.
  induction 1 as [|m cs _ IH|m b _ IH|m s _ IH|m q c m' _ IH Hq Hc E]; [constructor|constructor; assumption..|].
  econstructor; [exact IH| |exact E]. apply short_terms in Hq. tauto.
Qed.

Lemma forall2_squeeze l l' : Forall2 le l l' -> Forall2 le l' l -> l = l'.
Proof.
  induction 1 as [|x y l l' L F IH]; intros G; [reflexivity|]. inversion G; subst. f_equal; [lia|auto].
Qed.

Lemma c98_short : forall a n h m, metric_fed a n h m -> n <= 128 -> (a = AlgoV2 -> h <= 128 /\ h * n <= 256) ->
  buffers m = buffers (metric_new a).
Proof.
  intros a n h m F Hn Hh. symmetry. apply forall2_squeeze.
  - eapply c74_grow; [apply mr_new|]. eapply fed_later. exact F.
  - pose proof (c74_bound a n h m F) as B. destruct a.
    + rewrite Nat.max_l in B by lia. exact B.
    + destruct (Hh eq_refl) as [H1 H2]. rewrite !Nat.max_l in B by lia. exact B.
Qed.


Lemma c98_parser : forall ps, parser_fed 64 ps -> parser_buffers ps = [64; 64; 64].
Proof.
  induction 1 as [|ps s q ps' F IH Hs E|ps s q ps' F IH Hs E].
  - vm_compute. reflexivity.
  - rewrite (c75_parse _ _ _ _ E). unfold parser_buffers in IH. injection IH as -> -> ->.
    assert (byte_len s / 2 <= 63) by (apply Nat.div_le_upper_bound; lia). rewrite !Nat.max_l by lia. reflexivity.
  - rewrite (c75_raw _ _ _ _ E). exact IH.
Qed.

End Claims.
