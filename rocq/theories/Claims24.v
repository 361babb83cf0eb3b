(** Lemmas behind C88: a parser whose panic was caught. *)
From Verif Require Import Prelude Chars Normalize Utils Candidate Query Parser Scoring Fzf Api History MemoryMetric Borrows BorrowsMetric Spec.
From Verif Require Import ParserProofs BorrowsProofs BorrowsParser BorrowsMetricProofs Claims1.
From Coq Require Import Lia.
Local Open Scope nat_scope.

Section WithUnicode.
Context {UC : unicode}.

Lemma c88_parser : forall n ps s, parser_with_room n ps -> parse_not_extended ps s = Panic ->
  let ps' := parse_not_extended_caught ps s in
  (forall s', exists q p1 p2, parse ps' s' = Ok (q, p1) /\ parse parser_new s' = Ok (q, p2))
  /\ (forall s', length s' <= n -> exists p1, parse_not_extended ps' s' = Ok (new_not_extended s', p1))
  /\ (forall s', n < length s' -> parse_not_extended ps' s' = Panic).
Proof.
  intros n ps s H E ps'. pose proof (room_size _ _ (pw_caught _ _ _ H E)) as L. change (length (ps_chars ps') = n) in L. clearbody ps'.
  split; [|split].
  - intros s'. destruct (parse_correct ps' s') as (p1 & E1 & _). destruct (parse_correct parser_new s') as (p2 & E2 & _).
    eexists _, p1, p2. split; eassumption.
  - intros s' Hs. rewrite parse_not_extended_correct, L. apply Nat.leb_le in Hs. rewrite Hs. eexists. reflexivity.
  - intros s' Hs. rewrite parse_not_extended_correct, L. apply Nat.leb_gt in Hs. rewrite Hs. reflexivity.
Qed.

Lemma c88_program : forall w ms i p s, bprogram_reached (MkBProgram w ms) ->
  nth_error (bw_parsers w) i = Some (Some p) -> parse_not_extended_b (bw_mem w) p s = Panic ->
  let mem' := parse_not_extended_caught_b (bw_mem w) p s in
  bprogram_reached (MkBProgram (MkBWorld mem' (bw_parsers w) (other_bloans i (bw_loans w))) ms)
  /\ (forall b, In b (bw_loans w) -> bl_parser b <> i -> exists q,
        read_query_b (bw_mem w) (bl_query b) = Ok (q, bw_mem w) /\ read_query_b mem' (bl_query b) = Ok (q, mem'))
  /\ (forall g1 g2 g3 s', exists qb p' mem'' q ps,
        parse_b g1 g2 g3 mem' p s' = Ok (qb, p', mem'')
        /\ read_query_b mem'' qb = Ok (q, mem'') /\ parse parser_new s' = Ok (q, ps)).
Proof.
  intros [mem ps ls] ms i p s H Hi E mem'. cbn [bw_mem bw_parsers bw_loans] in *.
  assert (H' : bprogram_reached (MkBProgram (MkBWorld mem' ps (other_bloans i ls)) ms)).
  { eapply bpr_step; [exact H|]. apply bps_parser. apply bs_caught; assumption. }
  split; [exact H'|]. split.
  - intros b Hb Hn. destruct (c87_queries _ b H Hb) as (q & E1 & Q1).
    destruct (c87_queries _ b H') as (q' & E2 & Q2); [apply in_other_bloans; auto|]. cbn [bp_world bw_mem] in *.
    exists q. split; [exact E1|]. replace q with q'; [exact E2|]. destruct (bl_extended b); [|congruence].
    destruct Q1 as [p1 Q1], Q2 as [p2 Q2]. congruence.
  - intros g1 g2 g3 s'. destruct (proj2 (c87_calls _ H') i p Hi) as (C & _). cbn [bp_world bw_mem] in C.
    destruct (C g1 g2 g3 s') as [[[qb p'] mem''] E'].
    assert (H2 : bprogram_reached (MkBProgram (MkBWorld mem'' (upd ps i (Some p')) (MkBLoan i qb true s' :: other_bloans i (other_bloans i ls))) ms)).
    { eapply bpr_step; [exact H'|]. apply bps_parser. eapply bs_parse; eassumption. }
    destruct (c87_queries _ _ H2 (or_introl eq_refl)) as (q & E2 & p2 & Q2). cbn [bp_world bw_mem bl_query bl_string bl_extended] in *.
    exists qb, p', mem'', q, p2. auto.
Qed.

End WithUnicode.
