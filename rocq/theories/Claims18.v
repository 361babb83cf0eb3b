(** Proofs of C79: how long parsing takes. *)
From Verif Require Import Prelude Chars Utils Query Parser Api Cost ParseCost History Spec.
From Verif Require Import CostProofs CostBounds ParseCostProofs Claims15.
Local Open Scope nat_scope.

Section Parsing.
Context {UC : unicode}.

Lemma c79_same : forall ps s,
  fst (parse_tm ps s) = parse ps s /\ fst (parse_not_extended_tm ps s) = parse_not_extended ps s.
Proof. intros ps s. split; [apply parse_tm_same|apply parse_not_extended_tm_same]. Qed.

Lemma resize_enough {A} (v : list A) n : n <= length v -> resize_steps v n = 0.
Proof. unfold resize_steps. intros H. destruct (length v <? n) eqn:E; [apply Nat.ltb_lt in E; lia|reflexivity]. Qed.

Lemma c79_first : forall ps s, parse_steps ps s <= 8 * byte_len s + 11.
Proof.
  intros ps s. pose proof (parse_steps_le ps s) as H.
  pose proof (resize_le _ (ps_chars ps) (byte_len s)). pose proof (resize_le _ (ps_conditions ps) (byte_len s / 2 + 1)).
  pose proof (resize_le _ (ps_patterns ps) (byte_len s / 2 + 1)).
  pose proof (Nat.mul_div_le (byte_len s) 2 ltac:(lia)). lia.
Qed.

Lemma c79_again : forall ps s0 q0 ps1 ps2 s,
  parse ps s0 = Ok (q0, ps1) -> parser_later ps1 ps2 -> byte_len s <= byte_len s0 ->
  parse_steps ps2 s <= 6 * byte_len s + 9.
Proof.
  intros ps s0 q0 ps1 ps2 s H1 L Hs. apply c75_parse in H1.
  apply parser_later_under, under_le in L; [|reflexivity]. rewrite H1 in L. clear H1.
  pose proof (Nat.div_le_mono (byte_len s) (byte_len s0) 2 ltac:(lia) Hs) as D.
  pose proof (parse_steps_le ps2 s) as H.
  set (k := byte_len s / 2) in *. set (k0 := byte_len s0 / 2) in *. clearbody k k0.
  unfold parser_buffers in L. inversion L as [|? ? ? ? L1 L']; subst. inversion L' as [|? ? ? ? L2 L'']; subst.
  inversion L'' as [|? ? ? ? L3 L3']; subst.
  rewrite (resize_enough (ps_chars ps2)) in H by lia. rewrite (resize_enough (ps_conditions ps2)) in H by lia.
  rewrite (resize_enough (ps_patterns ps2)) in H by lia. lia.
Qed.

Lemma c79_raw : forall ps s, parse_not_extended_steps ps s <= 4 * length s.
Proof. exact parse_not_extended_steps_le. Qed.

End Parsing.
