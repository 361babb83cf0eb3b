(** Proofs for C107: what terms which are not fuzzy cost. *)
From Verif Require Import Prelude Chars Utils Candidate MatchedRanges Query Parser Scoring Slab Fzf FzfV1 FzfV2 Api Cost CostFormula TermCost
  History Spec PreludeProofs CharsProofs CandidateProofs ScoreProofs ExactProofs ExactChoice V1Proofs CostProofs CostBounds CostExact ParserProofs
  ApiProofs NormalizeProofs Claims1 Claims2 Claims8 Claims35.
Local Open Scope nat_scope.

Section WithUnicode.
Context {UC : unicode}.

Lemma compared_ext f g : (forall x y, f x y = g x y) -> forall p c, compared f p c = compared g p c.
Proof. intros H. induction p as [|x p IH]; intros [|y c]; try reflexivity. cbn [compared]. rewrite H, IH. reflexivity. Qed.

Lemma begins_ext f g : (forall x y, f x y = g x y) -> forall p c, begins f p c = begins g p c.
Proof. intros H p c. unfold begins. rewrite (agreed_len_ext f g p H). reflexivity. Qed.

Lemma begins_hits f : forall p c, begins f p c = hits f p c.
Proof.
  unfold begins. induction p as [|x p IH]; intros [|y c]; try reflexivity. cbn [agreed_len hits length].
  destruct (f x y); [|reflexivity]. exact (IH c).
Qed.

Lemma tries_ext f g s p c : (forall x y, f x y = g x y) -> forall l j, tries f s p c j l = tries g s p c j l.
Proof.
  intros H. induction l as [|x l IH]; intros j; [reflexivity|]. cbn [tries].
  rewrite (compared_ext f g H), (begins_ext f g H), (agreed_len_ext f g p H), IH. unfold bonus_seen.
  rewrite (place_seen_ext _ _ _ _ _ H). reflexivity.
Qed.

Lemma existsb_same A (f g : A -> bool) l : (forall x, f x = g x) -> existsb f l = existsb g l.
Proof. intros H. induction l as [|x l IH]; [reflexivity|]. cbn [existsb]. rewrite H, IH. reflexivity. Qed.

Lemma word_cost_ext f g s k p c : (forall x y, f x y = g x y) -> word_cost f s k p c = word_cost g s k p c.
Proof.
  intros H. destruct k; cbn [word_cost]; unfold exact_cost, suffix_cost, prefix_cost, equal_cost, occurs; cbv zeta; [reflexivity| | | |].
  - rewrite (tries_ext f g s p c H). rewrite (existsb_same _ _ (fun j => begins g p (skipn j c))); [reflexivity|].
    intros j. apply begins_ext. exact H.
  - rewrite (compared_ext f g H), (begins_ext f g H). reflexivity.
  - rewrite (compared_ext f g H), (begins_ext f g H). reflexivity.
  - rewrite (compared_ext f g H), (begins_ext f g H). reflexivity.
Qed.

Lemma blanks_lead c : blanks c = lead c.
Proof. unfold lead. induction c as [|x c IH]; [reflexivity|]. cbn [blanks count_while]. rewrite IH. reflexivity. Qed.

Lemma while_blanks c : while_steps (fun b => (b =? SPACE)%N) c = blanks_read c.
Proof.
  unfold blanks_read. induction c as [|x c IH]; [reflexivity|]. cbn [while_steps blanks length].
  change (x =? SPACE)%N with (x =? 32)%N. destruct (x =? 32)%N; [rewrite IH; reflexivity|]. destruct (length c); reflexivity.
Qed.

Lemma zip_takes eq : forall p w, takes (zip_eq_tm eq p w) (fun z n => z = zip_eq eq p w /\ n = compared eq p w).
Proof.
  intros p w. eapply takes_weaken with (P := fun z n => Ok (zip_eq eq p w) = Ok z /\ n = compared eq p w).
  - apply takes_same; [apply zip_eq_same|]. revert w. induction p as [|x p IH]; intros [|y w]; try reflexivity.
    cbn [zip_eq_tm compared]. apply takes_spend. destruct (eq x y); [|reflexivity].
    eapply takes_weaken; [apply IH|]. intros z n ->. reflexivity.
  - intros z n [E ->]. split; [congruence|reflexivity].
Qed.

Lemma finish_takes eq s p c a b r : p_text p <> [] -> hits eq (p_text p) (skipn a (cand_slice c)) = true ->
  b = a + length (p_text p) -> takes (finish_match_tm p c a b eq s r) (fun _ n => n = length (p_text p)).
Proof.
  intros Ht H Hb. unfold finish_match_tm. apply takes_bind.
  eapply takes_weaken with (P := fun _ n => n = length (p_text p)); [|intros [sc r'] n ->; apply takes_ok; lia].
  unfold compute_score_tm. apply takes_pure. intros pc _. destruct (p_text p) as [|x t] eqn:Et; [congruence|].
  apply takes_pure. intros sl E1. apply takes_pure. intros chars E2. pose proof (cand_chars_slice _ _ _ _ _ E1 E2) as ->.
  replace (b - a) with (length (x :: t)) by lia. apply hits_firstn in H. apply (hits_greedy _ _ _ 0) in H.
  match goal with |- takes (compute_score_loop_tm eq s ?l ?st) _ => pose proof (score_loop_takes eq s l st 0 _ H) as S1;
    set (u := compute_score_loop_tm eq s l st) in *; clearbody u end.
  assert (last (seq 0 (length (x :: t))) 0 = length t) as L.
  { cbn [length]. rewrite seq_S. apply last_last. }
  rewrite L in S1. unfold takes, runs. destruct (fst u); [cbn [length]; lia|exact I..].
Qed.

Lemma prefix_takes eq s p c r : pat_ok p -> p_text p <> [] ->
  takes (prefix_match_tm p c eq s r) (fun _ n => n = prefix_cost eq (p_text p) (cand_slice c)).
Proof.
  intros [Hp _] Ht. unfold prefix_match_tm, p_is_empty, prefix_cost. cbv zeta. destruct (p_text p) as [|x t] eqn:Et; [congruence|].
  rewrite <- Et in *. clear x t Et. apply takes_bind. unfold ignored_leading_tm. apply takes_bind. unfold leading_spaces_tm.
  apply takes_spend, takes_ok. rewrite cand_leading_spaces_spec. fold (lead (cand_slice c)). rewrite while_blanks, Hp, !blanks_lead.
  destruct (Nat.ltb_spec (lead (cand_slice c)) (lead (p_text p))) as [L|L]; [apply takes_ok, takes_ok; lia|].
  rewrite usub_ok by exact L. apply takes_bind, takes_ok, takes_ok. apply takes_pure. intros chars E.
  rewrite cand_chars_from_spec, slice_from_ok in E by (pose proof (lead_le (cand_slice c)); lia). injection E as <-.
  apply takes_bind. eapply takes_weaken; [apply zip_takes|]. intros z n [-> ->].
  rewrite begins_hits, <- zip_eq_hits. set (w := skipn _ _).
  pose proof (zip_eq_hits eq (p_text p) w) as Z. destruct (zip_eq eq (p_text p) w) as [[[|y u] rc]|]; cbn [zip_full] in *.
  - eapply takes_weaken; [apply finish_takes; [exact Ht|symmetry; exact Z|reflexivity]|]. intros o n ->. lia.
  - apply takes_ok. lia.
  - apply takes_ok. lia.
Qed.

Lemma suffix_takes eq s p c r : pat_ok p -> p_text p <> [] ->
  takes (suffix_match_tm p c eq s r) (fun _ n => n = suffix_cost eq (p_text p) (cand_slice c)).
Proof.
  intros [_ Hp] Ht. unfold suffix_match_tm, p_is_empty, suffix_cost, prefix_cost. cbv zeta. destruct (p_text p) as [|x t] eqn:Et; [congruence|].
  rewrite <- Et in *. clear x t Et. apply takes_bind. unfold ignored_trailing_tm. apply takes_bind. unfold trailing_spaces_tm.
  apply takes_spend, takes_ok. rewrite cand_trailing_spaces_spec. fold (trail (cand_slice c)). rewrite while_blanks, Hp, !blanks_lead.
  fold (trail (cand_slice c)). change (lead (rev (cand_slice c))) with (trail (cand_slice c)).
  change (lead (rev (p_text p))) with (trail (p_text p)). pose proof (trail_le (cand_slice c)) as Hl.
  destruct (Nat.ltb_spec (trail (cand_slice c)) (trail (p_text p))) as [L|L]; [apply takes_ok, takes_ok; lia|].
  rewrite usub_ok by exact L. apply takes_bind, takes_ok, takes_ok. apply takes_pure. intros up E.
  rewrite cand_char_len_spec, usub_ok in E by lia. injection E as <-.
  set (k := trail (cand_slice c) - trail (p_text p)) in *. apply takes_pure. intros sl E1. apply takes_pure. intros chars E2.
  pose proof (cand_chars_slice _ _ _ _ _ E1 E2) as ->. rewrite Nat.sub_0_r. cbn [skipn].
  assert (R : rev (firstn (length (cand_slice c) - k) (cand_slice c)) = skipn k (rev (cand_slice c))).
  { symmetry. apply skipn_rev. }
  rewrite R. apply takes_bind. eapply takes_weaken; [apply zip_takes|]. intros z n [-> ->].
  rewrite begins_hits, <- zip_eq_hits. set (w := skipn k (rev (cand_slice c))) in *.
  pose proof (zip_eq_hits eq (rev (p_text p)) w) as Z. destruct (zip_eq eq (rev (p_text p)) w) as [[[|y u] rc]|]; cbn [zip_full] in *.
  - apply takes_pure. intros st E. rewrite rev_length. rewrite <- R in Z. symmetry in Z. rewrite hits_rev in Z.
    apply andb_true_iff in Z as [Z1 Z2]. apply Nat.leb_le in Z1. rewrite firstn_length in Z1.
    unfold p_char_len in E. rewrite usub_ok in E by lia. injection E as <-.
    eapply takes_weaken; [apply finish_takes; [exact Ht| |lia]|]; [|intros o n ->; lia].
    rewrite firstn_length, Nat.min_l in Z2 by lia. rewrite skipn_firstn_hits in Z2 by (auto; lia). exact Z2.
  - apply takes_ok. lia.
  - apply takes_ok. lia.
Qed.

Lemma compared_firstn eq : forall p w k, length p <= k -> compared eq p (firstn k w) = compared eq p w.
Proof.
  induction p as [|x p IH]; intros [|y w] [|k] H; try reflexivity; cbn [length] in H; [lia|].
  cbn [firstn compared]. rewrite IH by lia. reflexivity.
Qed.

Lemma hits_cut eq : forall p w k, length p <= k -> hits eq p (firstn k w) = hits eq p w.
Proof.
  induction p as [|x p IH]; intros [|y w] [|k] H; try reflexivity; cbn [length] in H; [lia|].
  cbn [firstn hits]. rewrite IH by lia. reflexivity.
Qed.

Lemma zip_none eq : forall p w, length p <= length w -> hits eq p w = false -> zip_eq eq p w = None.
Proof.
  induction p as [|x p IH]; intros [|y w] H E; try discriminate; cbn [length] in H; [lia|]. cbn [zip_eq hits] in *.
  destruct (eq x y); [apply IH; [lia|exact E]|reflexivity].
Qed.

Lemma equal_takes eq s p c r : pat_ok p -> p_text p <> [] ->
  takes (equal_match_tm p c eq s r) (fun _ n => n = equal_cost eq (p_text p) (cand_slice c)).
Proof.
  intros [Hp Hp'] Ht. unfold equal_match_tm, p_is_empty, equal_cost. cbv zeta. destruct (p_text p) as [|x t] eqn:Et; [congruence|].
  rewrite <- Et in *. clear x t Et. apply takes_bind. unfold ignored_leading_tm, ignored_trailing_tm. apply takes_bind.
  unfold leading_spaces_tm, trailing_spaces_tm.
  apply takes_spend, takes_ok. rewrite cand_leading_spaces_spec. fold (lead (cand_slice c)). rewrite !while_blanks, Hp, Hp', !blanks_lead.
  change (lead (rev (cand_slice c))) with (trail (cand_slice c)).
  change (lead (rev (p_text p))) with (trail (p_text p)). pose proof (trail_le (cand_slice c)) as Hl. pose proof (lead_le (cand_slice c)) as Hl'.
  destruct (Nat.ltb_spec (lead (cand_slice c)) (lead (p_text p))) as [L|L]; [apply takes_ok, takes_ok; cbn [orb]; lia|]. cbn [orb].
  rewrite usub_ok by exact L. apply takes_bind, takes_ok, takes_ok. rewrite cand_char_len_spec.
  set (a := lead (cand_slice c) - lead (p_text p)) in *.
  destruct (Nat.eqb_spec a (length (cand_slice c))) as [Ha|Ha]; [apply takes_ok; lia|].
  apply takes_bind, takes_bind, takes_spend, takes_ok. rewrite cand_trailing_spaces_spec. fold (trail (cand_slice c)).
  destruct (Nat.ltb_spec (trail (cand_slice c)) (trail (p_text p))) as [L2|L2]; [apply takes_ok, takes_ok; cbn [orb]; lia|]. cbn [orb].
  rewrite usub_ok by exact L2. apply takes_bind, takes_ok, takes_ok. apply takes_pure. intros en E.
  set (b := trail (cand_slice c) - trail (p_text p)) in *. rewrite usub_ok in E by lia. injection E as <-.
  change (p_char_len p) with (length (p_text p)).
  set (w := length (cand_slice c) - b - a) in *.
  destruct (Nat.ltb_spec w (length (p_text p))) as [L3|L3]; [apply takes_ok; lia|].
  apply takes_pure. intros sl E1. apply takes_pure. intros chars E2.
  pose proof (cand_chars_slice _ _ _ _ _ E1 E2) as ->. fold w. set (l := skipn a (cand_slice c)) in *.
  assert (Hll : w <= length l) by (unfold l, w; rewrite skipn_length; lia).
  apply takes_bind. eapply takes_weaken; [apply zip_takes|]. intros z n [-> ->]. rewrite compared_firstn by exact L3.
  rewrite begins_hits, <- (hits_cut eq (p_text p) l w L3). destruct (hits eq (p_text p) (firstn w l)) eqn:H.
  - rewrite (zip_eq_rest _ _ _ H). cbn [zip_rest andb].
    assert (Hs : length (skipn (length (p_text p)) (firstn w l)) = w - length (p_text p)) by (rewrite skipn_length, firstn_length; lia).
    destruct (skipn (length (p_text p)) (firstn w l)) as [|y u]; cbn [length] in Hs; destruct (Nat.eqb_spec w (length (p_text p))) as [Ew|Ew]; try lia.
    + eapply takes_weaken; [apply finish_takes; [exact Ht| |]|].
      * rewrite hits_cut in H by exact L3. exact H.
      * assert (length (p_text p) <> 0) by (destruct (p_text p); [congruence|cbn; lia]). unfold w in Ew. lia.
      * intros o n ->. lia.
    + apply takes_ok. lia.
  - rewrite zip_none by (rewrite ?firstn_length; auto; lia). cbn [andb]. apply takes_ok. lia.
Qed.

(** * Exact terms *)
Section Search.
Variables (eq : char_eq_fn) (sch : fzf_scheme) (p : pattern) (l : list char).
Local Notation text := (p_text p).
Local Notation s := (into_inner sch).
Local Notation seen := (class_seen eq sch p l).

(** How an iteration of the outer loop ends after [n] characters of [chars] were compared with [t]. *)
Definition exits (t chars : list char) (cb : score) (e : em_exit) (n : nat) : Prop :=
  n = compared eq t chars
  /\ if begins eq t chars && (8 <=? cb)%Z then e = EmBreakOuter
     else exists r, e = EmInnerDone r /\ length r = length chars - n.

Lemma begins_cons x t y w : begins eq (x :: t) (y :: w) = eq x y && begins eq t w.
Proof. unfold begins. cbn [agreed_len length]. destruct (eq x y); reflexivity. Qed.

Lemma inner_matching_takes cso : forall chars off bs cb k st, 0 < k < length text ->
  takes (exact_inner_tm p eq s cso chars off bs cb k st)
    (fun x n => exits (skipn k text) chars cb (snd x) n /\ em_start_offset (fst x) = em_start_offset st).
Proof.
  induction chars as [|c chars IH]; intros off bs cb k st Hk.
  - cbn [exact_inner_tm]. apply takes_ok. cbn [fst snd]. split; [|reflexivity].
    destruct (skipn k text) as [|x t] eqn:E; [apply (f_equal (@length _)) in E; rewrite skipn_length in E; cbn in E; lia|].
    split; [reflexivity|]. cbn. exists []. split; reflexivity.
  - cbn [exact_inner_tm]. apply takes_spend, takes_pure. intros x Ex.
    assert (Et : skipn k text = x :: skipn (S k) text).
    { unfold p_char in Ex. apply idx_inv in Ex. clear - Ex. revert k Ex. generalize text. intros t. induction t as [|y t IH]; intros [|k] E; try discriminate.
      - injection E as ->. reflexivity.
      - cbn [skipn]. apply IH. exact E. }
    rewrite Et. unfold exits. cbn [compared length]. rewrite begins_cons. destruct (eq x c) eqn:E.
    + cbn [andb]. destruct (Nat.eqb_spec k 0) as [|_]; [lia|]. cbv zeta. change (p_char_len p) with (length text).
      destruct (Nat.eqb_spec (k + 1) (length text)) as [Em|Em].
      * assert (skipn (S k) text = []) as -> by (apply skipn_all2; lia).
        assert (compared eq [] chars = 0) as -> by (destruct chars; reflexivity).
        assert (begins eq [] chars = true) as -> by (destruct chars; reflexivity). cbn [andb].
        change BOUNDARY with 8%Z. destruct (8 <=? cb)%Z; apply takes_ok; cbn [fst snd].
        -- split; [split; reflexivity|]. destruct (_ <? _)%Z; reflexivity.
        -- split; [split; [reflexivity|]|destruct (_ <? _)%Z; reflexivity]. exists chars. split; [reflexivity|lia].
      * eapply takes_weaken; [apply IH; lia|]. intros [st' e] n [[-> H] Hs]. cbn [fst snd] in *. replace (k + 1) with (S k) in * by lia.
        split; [|exact Hs]. split; [reflexivity|]. destruct (begins _ _ _ && _); [exact H|]. destruct H as (r & H1 & H2).
        exists r. split; [exact H1|lia].
    + destruct (Nat.ltb_spec 0 k); [|lia]. cbn [andb]. apply takes_ok. cbn [fst snd]. split; [|reflexivity].
      split; [reflexivity|]. exists chars. split; [reflexivity|lia].
Qed.

Lemma compared_bound : forall t w, compared eq t w <= length w.
Proof. induction t as [|x t IH]; intros [|y w]; cbn [compared length]; try lia. destruct (eq x y); [specialize (IH w); lia|lia]. Qed.

Lemma inner_takes cso : text <> [] -> forall chars off st,
  skipn (cso + off) l = chars -> em_start_offset st = cso -> em_prev_class st = seen (cso + off) ->
  takes (exact_inner_tm p eq s cso chars off 0 0 0 st) (fun x n =>
    match snd x with
    | EmInnerDone (_ :: _) =>
        em_start_offset (fst x) <= length l
        /\ n + 1 + tries eq sch text l (em_start_offset (fst x)) (skipn (em_start_offset (fst x)) l)
           = tries eq sch text l (cso + off) chars
    | _ => n = tries eq sch text l (cso + off) chars
    end).
Proof.
  intros Ht. induction chars as [|c chars IH]; intros off st Hl Hso Hpc.
  - cbn [exact_inner_tm]. apply takes_ok. reflexivity.
  - assert (Hn : nth_error l (cso + off) = Some c).
    { rewrite <- (Nat.add_0_r (cso + off)), <- nth_error_skipn, Hl. reflexivity. }
    assert (Hl' : skipn (S (cso + off)) l = chars).
    { replace (S (cso + off)) with (cso + off + 1) by lia. rewrite <- skipn_skipn. rewrite Hl. reflexivity. }
    assert (Hlt : S (cso + off) <= length l) by (apply nth_error_Some; congruence).
    cbn [exact_inner_tm]. apply takes_spend, takes_pure. intros x Ex.
    destruct text as [|x0 t] eqn:Et; [congruence|].
    assert (x0 = x) as ->.
    { unfold p_char in Ex. apply idx_inv in Ex. rewrite Et in Ex. cbn in Ex. congruence. }
    cbn [tries]. cbn [compared length]. rewrite begins_cons. cbn [agreed_len].
    destruct (eq x c) eqn:E.
    + cbn [Nat.eqb andb]. cbv zeta. change (p_char_len p) with (length text). rewrite Et. cbn [length].
      assert (Hcb : compute_bonus (em_prev_class st) (char_class c s) s = bonus_seen eq sch (x :: t) l (cso + off)).
      { rewrite compute_bonus_points, char_class_place, Hpc, class_seen_place, Et. unfold bonus_seen.
        rewrite (nth_error_nth _ _ _ Hn). reflexivity. }
      rewrite Hcb. set (cb := bonus_seen eq sch (x :: t) l (cso + off)).
      set (st1 := MkEm (em_best_bonus st) _ _ _ _ _).
      assert (S1 : em_start_offset st1 = S (cso + off)) by (cbn; lia).
      destruct (Nat.eqb_spec (0 + 1) (S (length t))) as [Em|Em].
      * assert (t = []) as -> by (destruct t; [reflexivity|cbn in Em; lia]).
        assert (compared eq [] chars = 0) as -> by (destruct chars; reflexivity).
        assert (begins eq [] chars = true) as -> by (destruct chars; reflexivity). cbn [andb].
        change BOUNDARY with 8%Z. destruct (8 <=? cb)%Z; apply takes_ok; cbn [fst snd].
        -- rewrite Bool.orb_true_r. lia.
        -- rewrite Bool.orb_false_r. destruct chars as [|y chars]; [cbn; lia|].
           match goal with |- em_start_offset ?v <= _ /\ _ => assert (em_start_offset v = S (cso + off)) as -> by (destruct (_ <? _)%Z; exact S1) end.
           rewrite Hl'. split; [exact Hlt|]. cbn [Nat.eqb length]. lia.
      * eapply takes_weaken; [apply inner_matching_takes; rewrite Et; cbn [length]; lia|].
        intros [st' e] n [[-> H] Hs]. cbn [fst snd] in *. rewrite Et in H |- *. cbn [Nat.add skipn] in H |- *. rewrite S1 in Hs.
        pose proof (compared_bound t chars) as B1.
        destruct (begins eq t chars && (8 <=? cb)%Z) eqn:Eb.
        -- rewrite H, Bool.orb_true_r. lia.
        -- destruct H as (r & -> & Hr). rewrite Bool.orb_false_r. destruct r as [|y r]; cbn [length] in Hr.
           ++ cbn [Nat.eqb]. destruct (Nat.eqb_spec (compared eq t chars) (length chars)); lia.
           ++ cbn [Nat.eqb]. destruct (Nat.eqb_spec (compared eq t chars) (length chars)); [lia|]. cbn [em_start_offset] in Hs. rewrite Hs, Hl'. split; [exact Hlt|].
              cbn [Nat.eqb]. lia.
    + cbn [Nat.ltb Nat.leb andb]. rewrite Bool.orb_false_r. cbn [Nat.eqb Nat.add].
      eapply takes_weaken; [apply (IH (off + 1))|].
      * rewrite <- Hl'. f_equal. lia.
      * exact Hso.
      * replace (cso + (off + 1)) with (S (cso + off)) by lia. cbn [class_seen em_prev_class]. rewrite Hl, Et. cbn [agreed_len]. rewrite E.
        cbn [Nat.eqb]. rewrite (nth_error_nth _ _ _ Hn). reflexivity.
      * intros [st' e] n. cbn [fst snd]. replace (cso + (off + 1)) with (S (cso + off)) by lia.
        destruct chars as [|y chars].
        -- cbn [length Nat.eqb tries]. destruct e as [|[|z r]]; [intros ->; reflexivity..|]. intros [H1 H2]. split; [exact H1|lia].
        -- cbn [length Nat.eqb]. destruct e as [|[|z r]]; [intros ->; lia..|]. intros [H1 H2]. split; [exact H1|lia].
Qed.

Lemma outer_takes c : cand_slice c = l -> text <> [] -> forall fuel st,
  em_start_offset st <= length l -> em_prev_class st = seen (em_start_offset st) ->
  takes (exact_outer_tm fuel p c eq s st)
    (fun _ n => n = 1 + tries eq sch text l (em_start_offset st) (skipn (em_start_offset st) l)).
Proof.
  intros Hc Ht. induction fuel as [|fuel IH]; intros st Hs Hp; [exact I|]. cbn [exact_outer_tm]. apply takes_spend, takes_pure. intros chars E.
  rewrite cand_chars_from_spec, Hc, slice_from_ok in E by exact Hs. injection E as <-. set (cso := em_start_offset st) in *.
  destruct (seen_inner_spec eq sch p l cso st (skipn cso l) 0 st Ht) as (st1 & e1 & E1 & H1); auto.
  { rewrite Nat.add_0_r. reflexivity. } { intros; lia. } { rewrite Nat.add_0_r. exact Hp. }
  apply takes_bind. eapply takes_weaken; [eapply takes_same; [apply exact_inner_same|]|].
  { apply inner_takes; [exact Ht|rewrite Nat.add_0_r; reflexivity|reflexivity|rewrite Nat.add_0_r; exact Hp]. }
  intros [st' e] n [E2 H]. rewrite E1 in E2. injection E2 as <- <-. cbn [fst snd] in H. rewrite Nat.add_0_r in H.
  destruct e1 as [|[|z r]]; [apply takes_ok; lia..|]. destruct H as [H H'].
  eapply takes_weaken; [apply IH; [exact H|]|intros o k ->; lia].
  destruct H1 as [(X & _)|(bs & _ & _ & G3 & _ & G6)]; [discriminate|]. rewrite G3. exact G6.
Qed.

Lemma exact_takes c r : cand_slice c = l -> text <> [] ->
  takes (exact_match_tm p c eq s r) (fun _ n => n = exact_cost eq sch text l).
Proof.
  intros Hc Ht. unfold exact_match_tm, p_is_empty, exact_cost. destruct text as [|x t] eqn:Et; [congruence|]. rewrite <- Et in *. clear x t Et.
  apply takes_bind. eapply takes_weaken; [eapply takes_same; [apply exact_outer_same|]|].
  { apply outer_takes; [exact Hc|exact Ht|cbn; lia|reflexivity]. }
  intros st n [E ->]. rewrite cand_char_len_spec, Hc, (exact_outer_unicode eq sch p l c) in E by exact Hc.
  destruct (exact_start eq sch p l Ht) as (st1 & E1 & Hi & _). rewrite E1 in E. injection E as <-. unfold em_inv in Hi.
  cbn [em_start_offset skipn]. assert (Hocc : occurs eq text l = em_matched st1).
  { destruct (em_matched st1).
    - destruct Hi as (K1 & K2 & _). unfold occurs. apply existsb_exists. exists (em_best_start st1). split; [apply in_seq; lia|].
      rewrite begins_hits. exact K1.
    - destruct Hi as [_ K]. unfold occurs. destruct (existsb _ _) eqn:X; [|reflexivity]. apply existsb_exists in X as (j & J1 & J2).
      apply in_seq in J1. rewrite begins_hits in J2. destruct (K j ltac:(lia) J2). }
  rewrite Hocc. destruct (em_matched st1); cbn [negb]; [|apply takes_ok; lia].
  destruct Hi as (K1 & _ & K3 & _). eapply takes_weaken; [apply finish_takes; [exact Ht| |exact K3]|].
  - rewrite Hc. exact K1.
  - intros o k ->. lia.
Qed.

End Search.

End WithUnicode.
