(** Proofs about the metrics with their memory (MemoryMetric.v). *)
From Verif Require Import Prelude Chars Utils Candidate MatchedRanges Query Parser Scoring Slab Fzf FzfV1 FzfV2 Api History
  Memory MemoryMetric Spec PreludeProofs CharsProofs ParserProofs V1Proofs MemoryProofs ApiProofs Claims1.
Local Open Scope nat_scope.

(** ** Small facts *)
Lemma slab_with_slab m l : slab_of (with_slab m l) = l.
Proof. destruct m; reflexivity. Qed.

Lemma with_slab_twice m l l' : with_slab (with_slab m l) l' = with_slab m l'.
Proof. destruct m; reflexivity. Qed.

Lemma with_slab_same m : with_slab m (slab_of m) = m.
Proof. destruct m as [[]|[]]; reflexivity. Qed.

Lemma with_chars_same mem : with_chars mem (m_chars mem) = mem.
Proof. destruct mem; reflexivity. Qed.

Lemma set_option_slab {UC : unicode} m l x : with_slab (set_option m x) l = set_option (with_slab m l) x.
Proof. destruct m as [[]|[]], x; reflexivity. Qed.

Lemma deref_length A (h : heap A) r t : deref h r = Ok t -> length t = r_len r.
Proof.
  unfold deref. destruct (Nat.eqb_spec (r_len r) 0) as [E|E]; [intros [= <-]; cbn; congruence|].
  destruct (nth_error h (r_addr r)) as [[l|]|]; try discriminate. unfold slice.
  destruct (andb (r_start r <=? r_start r + r_len r) (r_start r + r_len r <=? length l)) eqn:C; [|discriminate]. intros [= <-].
  apply andb_prop in C as [_ C]. apply Nat.leb_le in C. rewrite firstn_length, skipn_length. lia.
Qed.

(** ** alloc_chars *)
Lemma chars_fill_m_eq text : forall h a l n, alive h a l ->
  chars_fill_m h a n text = let* '(l', n') := chars_fill l n text in Ok (upd h a (Some l'), n').
Proof.
  induction text as [|c text IH]; intros h a l n H; cbn [chars_fill_m chars_fill bind].
  - rewrite (upd_same _ _ _ _ H). reflexivity.
  - rewrite (write_eq _ _ _ _ _ _ H). destruct (set_idx l n c) as [l'| |]; cbn [bind]; [|reflexivity|reflexivity].
    rewrite (IH _ a l' (n + 1)) by (apply alive_upd; eapply alive_lt; exact H).
    destruct (chars_fill l' (n + 1) text) as [[l2 n2]| |]; cbn [bind]; [|reflexivity|reflexivity].
    rewrite upd_upd. reflexivity.
Qed.

Lemma slice_to_length A (l : list A) n t : slice_to l n = Ok t -> n <= length l /\ t = firstn n l.
Proof. unfold slice_to. destruct (Nat.leb_spec n (length l)); [intros [= <-]; auto|discriminate]. Qed.

Lemma alloc_chars_m_ok mv mem mm text l sl l' : alive (m_chars mem) (mm_slab mm) l ->
  candidate_alloc l text = Ok (sl, l') ->
  exists r a h, alloc_chars_m mv mem mm text = Ok (r, MkMetricM a (mm_rest mm), with_chars mem h)
    /\ alive h a l' /\ deref h r = Ok sl
    /\ (forall b x, b <> mm_slab mm -> alive (m_chars mem) b x -> alive h b x /\ b <> a).
Proof.
  intros A E. unfold alloc_chars_m.
  destruct (grow_vec_ok _ mv _ _ (byte_len text) 0%N _ A) as (h & a & G & L & _ & _ & F). rewrite G. cbn [bind].
  unfold candidate_alloc in E. apply bind_ok in E as ([l1 n] & E1 & E). apply bind_ok in E as (sl1 & E2 & E). injection E as <- <-.
  rewrite (chars_fill_m_eq _ _ _ _ _ L), E1. cbn [bind].
  assert (L1 : alive (upd h a (Some l1)) a l1) by (apply alive_upd; eapply alive_lt; exact L).
  apply slice_to_length in E2 as [Hn ->].
  unfold borrow. rewrite (buffer_alive _ _ _ _ L1). cbn [bind]. rewrite slice_ok by lia. cbn [bind]. rewrite Nat.sub_0_r.
  eexists _, _, _. split; [reflexivity|]. split; [exact L1|]. split.
  - eapply points_deref; [exact L1|]. instantiate (1 := length l1). split; [reflexivity|]. cbn [r_start r_len skipn]. repeat split; lia.
  - intros b x Hb K. destruct (F _ _ Hb K) as [K' Hb']. split; [apply alive_upd_other; auto|exact Hb'].
Qed.

(** ** A search, for one of the two metrics *)
Section Search.
Context {UC : unicode}.
Context {St : Type}.
Variable inj : St -> metric.
Variable alloc : St -> str -> res (list char * St).
Variable ceq : St -> pattern -> char_eq_fn.
Variable sch : St -> scheme.
Variable fuz : bool -> St -> pattern -> candidate -> mranges -> res (option score * St * mranges).
Hypothesis score_inj : forall R st p c rg,
  metric_score R (inj st) p c rg = let* '(sc, st, rg) := fzf_score ceq sch fuz R st p c rg in Ok (sc, inj st, rg).
Hypothesis fuzzy_inj : forall R st p c rg,
  metric_fuzzy R (inj st) p c rg = let* '(sc, st, rg) := fuz R st p c rg in Ok (sc, inj st, rg).
Hypothesis alloc_slab : forall st s sl st', alloc st s = Ok (sl, st') -> exists l,
  candidate_alloc (slab_of (inj st)) s = Ok (sl, l) /\ inj st' = with_slab (inj st) l.
Hypothesis fuzzy_slab : forall R st p c rg sc st' rg', fuz R st p c rg = Ok (sc, st', rg') -> slab_of (inj st') = slab_of (inj st).

(** A metric in memory *)
Definition enc (a : nat) (st : St) : metric_m := MkMetricM a (with_slab (inj st) []).

Lemma score_slab R st p c rg sc st' rg' : fzf_score ceq sch fuz R st p c rg = Ok (sc, st', rg') -> slab_of (inj st') = slab_of (inj st).
Proof.
  unfold fzf_score. intros E. apply bind_ok in E as ([[s1 st1] r1] & E1 & E).
  assert (st' = st1) by (destruct s1, (p_is_inverse p); congruence). subst st1.
  destruct (p_match_type p); [eapply fuzzy_slab; exact E1|..];
    apply bind_ok in E1 as ([s2 r2] & _ & E1); injection E1 as _ <- _; reflexivity.
Qed.

Lemma call_m_eq f g mem a st pm p cm c rg :
  (forall st, f (inj st) p c rg = let* '(sc, st, rg) := g st in Ok (sc, inj st, rg)) ->
  (forall sc st' rg', g st = Ok (sc, st', rg') -> slab_of (inj st') = slab_of (inj st)) ->
  alive (m_chars mem) a (slab_of (inj st)) -> read_pattern_m mem pm = Ok p -> read_candidate_m mem cm = Ok c ->
  call_m f mem (enc a st) pm cm rg = let* '(sc, st, rg) := g st in Ok (sc, enc a st, mem, rg).
Proof.
  intros Hf Hg A Ep Ec. unfold call_m, enc. cbn [mm_slab mm_rest]. rewrite Ep, Ec, (buffer_alive _ _ _ _ A). cbn [bind].
  rewrite with_slab_twice, with_slab_same, Hf. destruct (g st) as [[[sc st'] rg']| |] eqn:E; cbn [bind]; [|reflexivity|reflexivity].
  rewrite (Hg _ _ _ eq_refl), (upd_same _ _ _ _ A), with_chars_same. reflexivity.
Qed.

Lemma condition_slab R ps : forall st c rg sc st' rg',
  score_condition ceq sch fuz R st ps c rg = Ok (sc, st', rg') -> slab_of (inj st') = slab_of (inj st).
Proof.
  induction ps as [|p ps IH]; cbn [score_condition]; intros st c rg sc st' rg' E; [injection E as _ <- _; reflexivity|].
  apply bind_ok in E as ([[s1 st1] r1] & E1 & E). apply score_slab in E1. destruct s1.
  - injection E as _ <- _. exact E1.
  - rewrite <- E1. eapply IH; exact E.
Qed.

Lemma score_condition_m_eq R mem a cm c : read_candidate_m mem cm = Ok c -> forall pms ps st rg,
  alive (m_chars mem) a (slab_of (inj st)) -> read_all (read_pattern_m mem) pms = Ok ps ->
  score_condition_m R mem (enc a st) pms cm rg =
    let* '(sc, st, rg) := score_condition ceq sch fuz R st ps c rg in Ok (sc, enc a st, mem, rg).
Proof.
  intros Hc. induction pms as [|pm pms IH]; cbn [read_all]; intros ps st rg A E.
  - injection E as <-. reflexivity.
  - apply bind_ok in E as (p & E1 & E). apply bind_ok in E as (ps' & E2 & E). injection E as <-.
    cbn [score_condition_m score_condition].
    rewrite (call_m_eq (metric_score R) (fun st => fzf_score ceq sch fuz R st p c rg) mem a st pm p cm c rg); auto.
    2:{ intros ? ? ?. apply score_slab. }
    destruct (fzf_score ceq sch fuz R st p c rg) as [[[sc st1] rg1]| |] eqn:E3; cbn [bind]; [|reflexivity|reflexivity].
    destruct sc; [reflexivity|]. apply IH; [|exact E2]. rewrite (score_slab _ _ _ _ _ _ _ _ E3). exact A.
Qed.

Lemma score_conditions_m_eq R mem a cm c : read_candidate_m mem cm = Ok c -> forall rs conds st total rg,
  alive (m_chars mem) a (slab_of (inj st)) -> read_all (read_condition_m mem) rs = Ok conds ->
  score_conditions_m R mem (enc a st) rs cm total rg =
    let* '(sc, st, rg) := score_conditions ceq sch fuz R st conds c total rg in Ok (sc, enc a st, mem, rg).
Proof.
  intros Hc. induction rs as [|r rs IH]; cbn [read_all]; intros conds st total rg A E.
  - injection E as <-. reflexivity.
  - apply bind_ok in E as (ps & E1 & E). apply bind_ok in E as (conds' & E2 & E). injection E as <-.
    unfold read_condition_m in E1. apply bind_ok in E1 as (pms & E0 & E1).
    cbn [score_conditions_m score_conditions]. rewrite E0. cbn [bind].
    rewrite (score_condition_m_eq R mem a cm c Hc pms ps st rg A E1).
    destruct (score_condition ceq sch fuz R st ps c rg) as [[[sc st1] rg1]| |] eqn:E3; cbn [bind]; [|reflexivity|reflexivity].
    destruct sc; [|reflexivity]. apply IH; [|exact E2]. rewrite (condition_slab _ _ _ _ _ _ _ _ E3). exact A.
Qed.

Lemma is_empty_m mem qm q : read_query_m mem qm = Ok q -> q_is_empty_m qm = q_is_empty q.
Proof.
  destruct qm as [r|p]; cbn [read_query_m q_is_empty_m]; intros E.
  - apply bind_ok in E as (cs & E1 & E). apply bind_ok in E as (cs' & E2 & E). injection E as <-. cbn [q_is_empty].
    apply deref_length in E1. rewrite <- E1. destruct cs as [|x cs]; cbn [read_all] in E2.
    + injection E2 as <-. reflexivity.
    + apply bind_ok in E2 as (y & _ & E2). apply bind_ok in E2 as (ys & _ & E2). injection E2 as <-. reflexivity.
  - apply bind_ok in E as (p' & E1 & E). injection E as <-. unfold read_pattern_m in E1. apply bind_ok in E1 as (t & E1 & E2).
    injection E2 as <-. cbn [q_is_empty]. unfold p_is_empty. cbn [p_text]. apply deref_length in E1. rewrite <- E1. destruct t; reflexivity.
Qed.

(** The search with memory does what the search without does, if the query can be read before and after the characters of the
    candidate are written. *)
Lemma distance_m_eq mv R mem a st qm q cand buf d st' buf' :
  alive (m_chars mem) a (slab_of (inj st)) -> read_query_m mem qm = Ok q ->
  (forall h a', (forall b x, b <> a -> alive (m_chars mem) b x -> alive h b x /\ b <> a') ->
     read_query_m (with_chars mem h) qm = Ok q) ->
  fzf_distance alloc ceq sch fuz R st q cand buf = Ok (d, st', buf') ->
  exists a' h, distance_m mv R mem (enc a st) qm cand buf = Ok (d, enc a' st', with_chars mem h, buf')
    /\ alive h a' (slab_of (inj st'))
    /\ (forall b x, b <> a -> alive (m_chars mem) b x -> alive h b x /\ b <> a').
Proof.
  intros A Eq F E. unfold fzf_distance in E. unfold distance_m. rewrite (is_empty_m _ _ _ Eq).
  destruct (q_is_empty q).
  { injection E as <- <- <-. exists a, (m_chars mem). rewrite with_chars_same. auto. }
  apply bind_ok in E as ([c st1] & E1 & E).
  assert (G : exists cm a' h, (if str_is_ascii cand then Ok (AsciiM (encode cand), enc a st, mem)
         else let* '(r, mm, mem) := alloc_chars_m mv mem (enc a st) cand in Ok (UnicodeM r, mm, mem)) = Ok (cm, enc a' st1, with_chars mem h)
      /\ alive h a' (slab_of (inj st1)) /\ read_candidate_m (with_chars mem h) cm = Ok c
      /\ (forall b x, b <> a -> alive (m_chars mem) b x -> alive h b x /\ b <> a')).
  { destruct (str_is_ascii cand).
    - injection E1 as <- <-. exists (AsciiM (encode cand)), a, (m_chars mem). rewrite with_chars_same. auto.
    - apply bind_ok in E1 as ([sl st2] & E1 & E2). injection E2 as <- <-. destruct (alloc_slab _ _ _ _ E1) as (l & E2 & E3).
      destruct (alloc_chars_m_ok mv mem (enc a st) cand _ _ _ A E2) as (r & a' & h & E4 & K & D & Fr). rewrite E4. cbn [bind mm_rest enc].
      exists (UnicodeM r), a', h. split; [|split; [|split]].
      + unfold enc. rewrite E3, with_slab_twice. reflexivity.
      + rewrite E3, slab_with_slab. exact K.
      + cbn [read_candidate_m with_chars m_chars]. rewrite D. reflexivity.
      + exact Fr. }
  destruct G as (cm & a' & h & -> & K & Ec & Fr). cbn [bind]. pose proof (F _ _ Fr) as Eq'.
  unfold fzf_search in E. apply bind_ok in E as ([[sc st2] rg] & E2 & E). injection E as <- <- <-.
  assert (G : (match qm with
               | ExtendedM r => let* conds := deref (m_conditions (with_chars mem h)) r in
                   score_conditions_m R (with_chars mem h) (enc a' st1) conds cm 0 (mranges_from buf)
               | NotExtendedM p => call_m (metric_fuzzy R) (with_chars mem h) (enc a' st1) p cm (mranges_from buf)
               end) = Ok (sc, enc a' st2, with_chars mem h, rg) /\ slab_of (inj st2) = slab_of (inj st1)).
  { destruct qm as [r|pm]; cbn [read_query_m] in Eq'.
    - apply bind_ok in Eq' as (cs & E3 & Eq'). apply bind_ok in Eq' as (cs' & E4 & Eq'). injection Eq' as <-. rewrite E3. cbn [bind].
      rewrite (score_conditions_m_eq R _ a' cm c Ec cs cs' st1 0%Z (mranges_from buf) K E4), E2. split; [reflexivity|].
      clear -E2 fuzzy_slab. revert st1 E2. generalize 0%Z, (mranges_from buf). induction cs' as [|x cs' IH]; cbn [score_conditions]; intros t b st1 E2.
      + injection E2 as _ <- _. reflexivity.
      + apply bind_ok in E2 as ([[s1 st3] r1] & E1 & E2). apply condition_slab in E1. destruct s1.
        * rewrite <- E1. eapply IH; exact E2.
        * injection E2 as _ <- _. exact E1.
    - apply bind_ok in Eq' as (p & E3 & Eq'). injection Eq' as <-.
      rewrite (call_m_eq (metric_fuzzy R) (fun st => fuz R st p c (mranges_from buf)) _ a' st1 pm p cm c (mranges_from buf)); auto.
      2:{ intros ? ? ?. apply fuzzy_slab. }
      rewrite E2. split; [reflexivity|]. eapply fuzzy_slab; exact E2. }
  destruct G as [-> Es]. cbn [bind]. exists a', h. split; [reflexivity|]. split; [|exact Fr]. rewrite Es. exact K.
Qed.

End Search.

(** ** Programs *)
Section Programs.
Context {UC : unicode}.

Lemma v2_fuzzy_slab R m p c rg sc m' rg' : v2_fuzzy R m p c rg = Ok (sc, m', rg') -> v2_candidate_slab m' = v2_candidate_slab m.
Proof.
  unfold v2_fuzzy. intros E. destruct (p_char_len p =? 1).
  - apply bind_ok in E as (x & _ & E). apply bind_ok in E as ([s1 r1] & _ & E). injection E as _ <- _. reflexivity.
  - apply bind_ok in E as ([r ind] & _ & E). destruct r as [[mo lm]|]; [|injection E as _ <- _; reflexivity].
    apply bind_ok in E as (x1 & _ & E). apply bind_ok in E as (x2 & _ & E). apply bind_ok in E as (x3 & _ & E).
    apply bind_ok in E as (x4 & _ & E). apply bind_ok in E as ([x5 x6] & _ & E). apply bind_ok in E as (x7 & _ & E).
    apply bind_ok in E as ([[[[[[x8 x9] x10] x11] x12] x13] x14] & _ & E). apply bind_ok in E as (x15 & _ & E).
    injection E as _ <- _. reflexivity.
Qed.

Lemma v1_fuzzy_same R m p c rg sc m' rg' : v1_fuzzy R m p c rg = Ok (sc, m', rg') -> m' = m.
Proof.
  unfold v1_fuzzy. intros E. repeat first
    [ match type of E with (if ?b then _ else _) = _ => destruct b end
    | match type of E with (match ?b with _ => _ end) = _ => destruct b end
    | apply bind_ok in E as (? & _ & E) | injection E as _ <- _; reflexivity ]; try congruence.
Qed.

(** The search of either metric *)
Lemma metric_distance_and_ranges_m_eq mv mem a m qm q cand buf d m' buf' :
  alive (m_chars mem) a (slab_of m) -> read_query_m mem qm = Ok q ->
  (forall h a', (forall b x, b <> a -> alive (m_chars mem) b x -> alive h b x /\ b <> a') ->
     read_query_m (with_chars mem h) qm = Ok q) ->
  metric_distance_and_ranges m q cand buf = Ok (d, m', buf') ->
  exists a' h, metric_distance_and_ranges_m mv mem (MkMetricM a (with_slab m [])) qm cand buf
      = Ok (d, MkMetricM a' (with_slab m' []), with_chars mem h, buf')
    /\ alive h a' (slab_of m')
    /\ (forall b x, b <> a -> alive (m_chars mem) b x -> alive h b x /\ b <> a').
Proof.
  intros A Eq F E. unfold metric_distance_and_ranges_m. destruct m as [m|m]; cbn [metric_distance_and_ranges] in E;
    apply bind_ok in E as ([[d1 m1] b1] & E1 & E); injection E as <- <- <-.
  - apply (distance_m_eq V1 v1_alloc_chars v1_char_eq v1_scoring_scheme v1_fuzzy) with (q := q); auto.
    + intros st s sl st' H. unfold v1_alloc_chars in H. apply bind_ok in H as ([x y] & H & H'). injection H' as <- <-. exists y. auto.
    + intros R st p c rg sc st' rg' H. apply v1_fuzzy_same in H. subst. reflexivity.
  - apply (distance_m_eq V2 v2_alloc_chars v2_char_eq v2_scoring_scheme v2_fuzzy) with (q := q); auto.
    + intros st s sl st' H. unfold v2_alloc_chars in H. apply bind_ok in H as ([x y] & H & H'). injection H' as <- <-. exists y. auto.
    + intros R st p c rg sc st' rg' H. apply v2_fuzzy_slab in H. exact H.
Qed.

Lemma metric_distance_m_eq mv mem a m qm q cand d m' :
  alive (m_chars mem) a (slab_of m) -> read_query_m mem qm = Ok q ->
  (forall h a', (forall b x, b <> a -> alive (m_chars mem) b x -> alive h b x /\ b <> a') ->
     read_query_m (with_chars mem h) qm = Ok q) ->
  metric_distance m q cand = Ok (d, m') ->
  exists a' h, metric_distance_m mv mem (MkMetricM a (with_slab m [])) qm cand
      = Ok (d, MkMetricM a' (with_slab m' []), with_chars mem h)
    /\ alive h a' (slab_of m')
    /\ (forall b x, b <> a -> alive (m_chars mem) b x -> alive h b x /\ b <> a').
Proof.
  intros A Eq F E. unfold metric_distance_m.
  assert (G : exists a' h b', distance_m mv false mem (MkMetricM a (with_slab m [])) qm cand []
      = Ok (d, MkMetricM a' (with_slab m' []), with_chars mem h, b')
    /\ alive h a' (slab_of m')
    /\ (forall b x, b <> a -> alive (m_chars mem) b x -> alive h b x /\ b <> a')).
  { destruct m as [m|m]; cbn [metric_distance] in E; apply bind_ok in E as ([d1 m1] & E1 & E); injection E as <- <-.
    - apply bind_ok in E1 as ([[d2 m2] b2] & E1 & E). injection E as <- <-.
      destruct (distance_m_eq V1 v1_alloc_chars v1_char_eq v1_scoring_scheme v1_fuzzy) with (mv := mv) (R := false) (mem := mem) (a := a) (st := m)
        (qm := qm) (q := q) (cand := cand) (buf := @nil range) (d := d2) (st' := m2) (buf' := b2) as (a' & h & G); auto.
      + intros st s sl st' H. unfold v1_alloc_chars in H. apply bind_ok in H as ([x y] & H & H'). injection H' as <- <-. exists y. auto.
      + intros R st p c rg sc st' rg' H. apply v1_fuzzy_same in H. subst. reflexivity.
      + exists a', h, b2. exact G.
    - apply bind_ok in E1 as ([[d2 m2] b2] & E1 & E). injection E as <- <-.
      destruct (distance_m_eq V2 v2_alloc_chars v2_char_eq v2_scoring_scheme v2_fuzzy) with (mv := mv) (R := false) (mem := mem) (a := a) (st := m)
        (qm := qm) (q := q) (cand := cand) (buf := @nil range) (d := d2) (st' := m2) (buf' := b2) as (a' & h & G); auto.
      + intros st s sl st' H. unfold v2_alloc_chars in H. apply bind_ok in H as ([x y] & H & H'). injection H' as <- <-. exists y. auto.
      + intros R st p c rg sc st' rg' H. apply v2_fuzzy_slab in H. exact H.
      + exists a', h, b2. exact G. }
  destruct G as (a' & h & b' & -> & G). cbn [bind]. exists a', h. auto.
Qed.

(** Writing to a buffer which is not a parser's *)
Lemma inv_frame mem ps ls h a a' : inv (MkWorld mem ps ls) ->
  (forall i p, nth_error ps i = Some (Some p) -> pa_chars p <> a) ->
  (forall b x, b <> a -> alive (m_chars mem) b x -> alive h b x /\ b <> a') ->
  inv (MkWorld (with_chars mem h) ps ls).
Proof.
  intros [I1 I2 I3] Ha F. cbn [w_mem w_parsers w_loans] in *. constructor; cbn [w_mem w_parsers w_loans].
  - intros i p H. destruct (I1 _ _ H) as (l & L & D & (K1 & K2 & K3) & Hl). exists l, L, D. split; [|exact Hl].
    split; [|split; assumption]. cbn [with_chars m_chars]. apply F; [eapply Ha; exact H|exact K1].
  - exact I2.
  - intros b Hb. destruct (I3 _ Hb) as (p & l & L & D & H & (K1 & K2 & K3) & R). exists p, l, L, D. split; [exact H|]. split; [|exact R].
    split; [|split; assumption]. cbn [with_chars m_chars]. apply F; [eapply Ha; exact H|exact K1].
Qed.

Lemma loan_reads w b : inv w -> In b (w_loans w) -> read_query_m (w_mem w) (l_query b) = Ok (wanted (l_extended b) (l_string b)).
Proof.
  intros H Hb. destruct (iv_loans _ H _ Hb) as (p & l & L & D & _ & (K1 & K2 & K3) & R). eapply reads_read; eassumption.
Qed.

Lemma wanted_reached e s : query_reached (wanted e s).
Proof.
  destruct e; cbn [wanted].
  - destruct (parse_correct parser_new s) as (ps & E & _). eapply qr_parse; [constructor|exact E].
  - destruct (parse_correct_sized parser_new s) as (ps & E & _ & _ & _ & El & _).
    pose proof (parse_not_extended_correct ps s) as P. destruct (Nat.leb_spec (length s) (length (ps_chars ps))) as [H|H].
    + eapply qr_parse_not_extended; [eapply pr_parse; [constructor|exact E]|exact P].
    + pose proof (length_le_byte_len s). lia.
Qed.

(** What holds of every program: the buffers of parsers and metrics are alive and are all different, and the metrics hold what
    the metrics without memory hold after the same calls. *)
Record pinv (g : program) : Prop := MkPinv {
  pv_inv : inv (pg_world g);
  pv_metric : forall i k, nth_error (pg_metrics g) i = Some (Some k) -> exists m,
    alive (m_chars (w_mem (pg_world g))) (mm_slab (ow_metric k)) (slab_of m)
    /\ mm_rest (ow_metric k) = with_slab m [] /\ metric_reached (ow_algo k) (ow_options k) m;
  pv_parsers : forall i k j p, nth_error (pg_metrics g) i = Some (Some k) ->
    nth_error (w_parsers (pg_world g)) j = Some (Some p) -> pa_chars p <> mm_slab (ow_metric k);
  pv_apart : forall i j k k', i <> j -> nth_error (pg_metrics g) i = Some (Some k) ->
    nth_error (pg_metrics g) j = Some (Some k') -> mm_slab (ow_metric k) <> mm_slab (ow_metric k')
}.

(** A new metric, with a slab of its own *)
Lemma pinv_snoc w ms a o m : pinv (MkProgram w ms) -> metric_reached a o m ->
  pinv (MkProgram (with_mem w (with_chars (w_mem w) (m_chars (w_mem w) ++ [Some (slab_of m)])))
          (ms ++ [Some (MkOwned a o (MkMetricM (length (m_chars (w_mem w))) (with_slab m [])))])).
Proof.
  intros [I1 I2 I3 I4] Hm. cbn [pg_world pg_metrics] in *. destruct w as [mem ps ls]. cbn [w_mem w_parsers w_loans with_mem] in *.
  assert (Lp : forall j p, nth_error ps j = Some (Some p) -> pa_chars p < length (m_chars mem)).
  { intros j p H. destruct (iv_live _ I1 _ _ H) as (l & L & D & (K1 & _) & _). eapply alive_lt; exact K1. }
  assert (Lm : forall j k, nth_error ms j = Some (Some k) -> mm_slab (ow_metric k) < length (m_chars mem)).
  { intros j k H. destruct (I2 _ _ H) as (x & K & _). eapply alive_lt; exact K. }
  constructor; cbn [pg_world pg_metrics w_mem w_parsers with_mem w_loans].
  - apply (inv_frame mem ps ls _ (length (m_chars mem)) (length (m_chars mem))); [exact I1| |].
    + intros i p H. apply Lp in H. lia.
    + intros b x Hb K. split; [apply alive_app; exact K|exact Hb].
  - intros i k H. apply nth_error_snoc in H as [H|[_ [= <-]]].
    + destruct (I2 _ _ H) as (x & K & R). exists x. split; [|exact R]. cbn [with_chars m_chars]. apply alive_app. exact K.
    + exists m. cbn [ow_metric mm_slab mm_rest ow_algo ow_options with_chars m_chars]. split; [apply alive_last|]. auto.
  - intros i k j p H H'. apply nth_error_snoc in H as [H|[_ [= <-]]]; [eapply I3; eassumption|].
    cbn [ow_metric mm_slab]. apply Lp in H'. lia.
  - intros i j k k' Hij H H'. apply nth_error_snoc in H as [H|[-> [= <-]]]; apply nth_error_snoc in H' as [H'|[-> [= <-]]];
      cbn [ow_metric mm_slab].
    + eapply I4; eassumption.
    + apply Lm in H. lia.
    + apply Lm in H'. lia.
    + congruence.
Qed.

(** A call which works on metric [i] only *)
Lemma pinv_at w ms i k ok h : pinv (MkProgram w ms) -> nth_error ms i = Some (Some k) ->
  (forall b x, b <> mm_slab (ow_metric k) -> alive (m_chars (w_mem w)) b x ->
     alive h b x /\ forall k', ok = Some k' -> b <> mm_slab (ow_metric k')) ->
  (forall k', ok = Some k' -> exists m, alive h (mm_slab (ow_metric k')) (slab_of m)
     /\ mm_rest (ow_metric k') = with_slab m [] /\ metric_reached (ow_algo k') (ow_options k') m) ->
  pinv (MkProgram (with_mem w (with_chars (w_mem w) h)) (upd ms i ok)).
Proof.
  intros [I1 I2 I3 I4] Hi F Ho. cbn [pg_world pg_metrics] in *. destruct w as [mem ps ls]. cbn [w_mem w_parsers w_loans with_mem] in *.
  assert (Hlt : i < length ms) by (apply nth_error_Some; congruence).
  assert (N : forall j x, nth_error (upd ms i ok) j = Some x -> (j = i /\ x = ok) \/ (j <> i /\ nth_error ms j = Some x)).
  { intros j x H. rewrite nth_error_upd in H. destruct (Nat.eqb_spec j i) as [->|Hj]; [|auto].
    apply Nat.ltb_lt in Hlt. rewrite Hlt in H. cbn [andb] in H. left. split; [reflexivity|congruence]. }
  constructor; cbn [pg_world pg_metrics w_mem w_parsers with_mem w_loans with_chars m_chars].
  - apply (inv_frame mem ps ls h (mm_slab (ow_metric k)) (length h)); [exact I1| |].
    + intros j p H. eapply I3; eassumption.
    + intros b x Hb K. apply F in K; [|exact Hb]. destruct K as [K _]. split; [exact K|]. apply alive_lt in K. lia.
  - intros j k' H. apply N in H as [[-> E]|[Hj H]]; [apply Ho; congruence|].
    destruct (I2 _ _ H) as (m & K & R). exists m. split; [|exact R]. apply F; [|exact K]. eapply I4; eassumption.
  - intros j k' n p H H'. apply N in H as [[-> E]|[Hj H]]; [|eapply I3; eassumption].
    destruct (iv_live _ I1 _ _ H') as (l & L & D & (K & _) & _). cbn [w_mem] in K.
    destruct (F _ _ (I3 _ _ _ _ Hi H') K) as [_ G]. apply G. congruence.
  - intros j n q q' Hjn H H'. apply N in H as [[-> E]|[Hj H]]; apply N in H' as [[-> E']|[Hk H']].
    + contradiction.
    + destruct (I2 _ _ H') as (m & K & _). destruct (F _ _ (I4 _ _ _ _ Hk H' Hi) K) as [_ G]. specialize (G _ (eq_sym E)). congruence.
    + destruct (I2 _ _ H) as (m & K & _). destruct (F _ _ (I4 _ _ _ _ Hj H Hi) K) as [_ G]. specialize (G _ (eq_sym E')). congruence.
    + exact (I4 _ _ _ _ Hjn H H').
Qed.

(** A search through references returns what the one without memory returns *)
Lemma search_sim g i k b : pinv g -> nth_error (pg_metrics g) i = Some (Some k) -> In b (w_loans (pg_world g)) ->
  exists m, alive (m_chars (w_mem (pg_world g))) (mm_slab (ow_metric k)) (slab_of m)
    /\ metric_reached (ow_algo k) (ow_options k) m
    /\ (forall mv cand d m', metric_distance m (wanted (l_extended b) (l_string b)) cand = Ok (d, m') ->
          exists a' h, metric_distance_m mv (w_mem (pg_world g)) (ow_metric k) (l_query b) cand
              = Ok (d, MkMetricM a' (with_slab m' []), with_chars (w_mem (pg_world g)) h)
            /\ alive h a' (slab_of m')
            /\ (forall b x, b <> mm_slab (ow_metric k) -> alive (m_chars (w_mem (pg_world g))) b x -> alive h b x /\ b <> a'))
    /\ (forall mv cand buf d m' buf', metric_distance_and_ranges m (wanted (l_extended b) (l_string b)) cand buf = Ok (d, m', buf') ->
          exists a' h, metric_distance_and_ranges_m mv (w_mem (pg_world g)) (ow_metric k) (l_query b) cand buf
              = Ok (d, MkMetricM a' (with_slab m' []), with_chars (w_mem (pg_world g)) h, buf')
            /\ alive h a' (slab_of m')
            /\ (forall b x, b <> mm_slab (ow_metric k) -> alive (m_chars (w_mem (pg_world g))) b x -> alive h b x /\ b <> a')).
Proof.
  intros I Hi Hb. destruct g as [w ms]. cbn [pg_world pg_metrics] in *. destruct (pv_metric _ I _ _ Hi) as (m & A & Er & Hm).
  cbn [pg_world] in A. pose proof (loan_reads _ _ (pv_inv _ I) Hb) as Eq. cbn [pg_world] in Eq.
  assert (F : forall h a', (forall b x, b <> mm_slab (ow_metric k) -> alive (m_chars (w_mem w)) b x -> alive h b x /\ b <> a') ->
     read_query_m (with_chars (w_mem w) h) (l_query b) = Ok (wanted (l_extended b) (l_string b))).
  { intros h a' Fr. pose proof (pv_inv _ I) as I'. cbn [pg_world] in I'. destruct w as [mem ps ls]. cbn [w_mem w_loans] in *.
    assert (J : inv (MkWorld (with_chars mem h) ps ls)).
    { apply (inv_frame mem ps ls h _ a') with (2 := fun j p H => pv_parsers _ I i k j p Hi H); assumption. }
    apply (loan_reads _ _ J Hb). }
  assert (Ek : ow_metric k = MkMetricM (mm_slab (ow_metric k)) (with_slab m [])) by (rewrite <- Er; destruct (ow_metric k); reflexivity).
  exists m. split; [exact A|]. split; [exact Hm|]. split.
  - intros mv cand d m' E. destruct (metric_distance_m_eq mv _ _ _ _ _ cand d m' A Eq F E) as (a' & h & G). rewrite <- Ek in G. eauto.
  - intros mv cand buf d m' buf' E.
    destruct (metric_distance_and_ranges_m_eq mv _ _ _ _ _ cand buf d m' buf' A Eq F E) as (a' & h & G). rewrite <- Ek in G. eauto.
Qed.

Lemma pinv_step g g' : pinv g -> pstep g g' -> pinv g'.
Proof.
  intros I H. destruct H as [w w' ms H|w ms a mm mem E|w ms i a o mm mm' mem Hi E|w ms i a o mm Hi|w ms i a o mm x Hi
    |w ms i a o mm mv b cand d mm' mem Hi Hb E|w ms i a o mm mv b cand buf d mm' mem buf' Hi Hb E].
  - pose proof (pv_inv _ I) as I1. cbn [pg_world] in I1.
    assert (Fr : forall i k, nth_error ms i = Some (Some k) -> forall x, alive (m_chars (w_mem w)) (mm_slab (ow_metric k)) x ->
       alive (m_chars (w_mem w')) (mm_slab (ow_metric k)) x
       /\ forall j p, nth_error (w_parsers w') j = Some (Some p) -> mm_slab (ow_metric k) <> pa_chars p).
    { intros i k Hi x A. eapply step_frame; [exact I1|exact H|exact A|].
      intros j p Hj K. eapply (pv_parsers _ I i k j p); [exact Hi|exact Hj|congruence]. }
    constructor; cbn [pg_world pg_metrics].
    + eapply inv_step; eassumption.
    + intros i k Hi. destruct (pv_metric _ I _ _ Hi) as (m & A & R). cbn [pg_world] in A. exists m. split; [|exact R].
      eapply Fr; eassumption.
    + intros i k j p Hi Hj. destruct (pv_metric _ I _ _ Hi) as (m & A & R). cbn [pg_world] in A. intros K. eapply Fr; [exact Hi|exact A|exact Hj|congruence].
    + intros i j k k' Hij Hi Hj. exact (pv_apart _ I i j k k' Hij Hi Hj).
  - unfold metric_new_m in E. apply pair_equal_spec in E as [<- <-]. apply pinv_snoc; [exact I|constructor].
  - destruct (pv_metric _ I _ _ Hi) as (m & A & Er & Hm). cbn [pg_world ow_metric ow_algo ow_options] in *. unfold metric_clone_m in E.
    rewrite (buffer_alive _ _ _ _ A) in E. cbn [bind] in E. injection E as <- <-. rewrite Er. apply pinv_snoc; assumption.
  - unfold metric_drop_m. eapply pinv_at; [exact I|exact Hi| |discriminate].
    intros b x Hb K. split; [apply alive_upd_other; auto|discriminate].
  - destruct w as [mem ps ls].
    replace (MkWorld mem ps ls) with (with_mem (MkWorld mem ps ls) (with_chars (w_mem (MkWorld mem ps ls)) (m_chars mem)))
      by (cbn [w_mem]; rewrite with_chars_same; reflexivity).
    eapply pinv_at; [exact I|exact Hi| |].
    + cbn [w_mem ow_metric mm_slab]. intros b x0 Hb K. split; [exact K|]. intros k' [= <-]. exact Hb.
    + intros k' [= <-]. destruct (pv_metric _ I _ _ Hi) as (m & A & Er & Hm). cbn [pg_world w_mem ow_metric ow_algo ow_options mm_slab mm_rest] in *.
      exists (set_option m x). split; [|split].
      * replace (slab_of (set_option m x)) with (slab_of m); [exact A|]. destruct m as [[]|[]], x; reflexivity.
      * rewrite Er, set_option_slab. reflexivity.
      * destruct x; cbn [after_setting set_option]; [apply mr_case|apply mr_norm|apply mr_scheme]; exact Hm.
  - destruct (search_sim _ _ _ b I Hi Hb) as (m & A & Hm & S & _). cbn [pg_world ow_metric ow_algo ow_options] in *.
    destruct (reached_result a o (wanted (l_extended b) (l_string b)) cand (wanted_reached _ _)) as (d1 & new & _ & _ & R).
    destruct (R m Hm) as [(m' & Hm' & E') _]. destruct (S mv _ _ _ E') as (a' & h & E2 & K & Fr). rewrite E2 in E. injection E as <- <- <-.
    eapply pinv_at; [exact I|exact Hi| |].
    + intros b0 x Hb0 K0. destruct (Fr _ _ Hb0 K0) as [F1 F2]. split; [exact F1|]. intros k' [= <-]. exact F2.
    + intros k' [= <-]. exists m'. auto.
  - destruct (search_sim _ _ _ b I Hi Hb) as (m & A & Hm & _ & S). cbn [pg_world ow_metric ow_algo ow_options] in *.
    destruct (reached_result a o (wanted (l_extended b) (l_string b)) cand (wanted_reached _ _)) as (d1 & new & _ & _ & R).
    destruct (R m Hm) as [_ R']. destruct (R' buf) as (m' & Hm' & E'). destruct (S mv _ _ _ _ _ E') as (a' & h & E2 & K & Fr).
    rewrite E2 in E. injection E as <- <- <- <-.
    eapply pinv_at; [exact I|exact Hi| |].
    + intros b0 x Hb0 K0. destruct (Fr _ _ Hb0 K0) as [F1 F2]. split; [exact F1|]. intros k' [= <-]. exact F2.
    + intros k' [= <-]. exists m'. auto.
Qed.

Lemma pinv_reached g : program_reached g -> pinv g.
Proof.
  induction 1 as [|g g' _ IH H]; [|eapply pinv_step; eassumption].
  constructor; cbn [pg_world pg_metrics].
  - apply inv_start.
  - intros [|i] k H; discriminate.
  - intros [|i] k j p H; discriminate.
  - intros [|i] j k k' _ H; discriminate.
Qed.

(** What the query of a loan should be, in terms of the parser without memory *)
Lemma wanted_parse b : if l_extended b then exists ps, parse parser_new (l_string b) = Ok (wanted (l_extended b) (l_string b), ps)
  else wanted (l_extended b) (l_string b) = new_not_extended (l_string b).
Proof.
  destruct (l_extended b); [|reflexivity]. destruct (parse_correct parser_new (l_string b)) as (ps & E & _). exists ps. exact E.
Qed.

Lemma c84_search : forall g i k b mv cand buf m,
  program_reached g -> nth_error (pg_metrics g) i = Some (Some k) -> In b (w_loans (pg_world g)) ->
  metric_reached (ow_algo k) (ow_options k) m ->
  exists q d new m1 m2 mm1 mem1 mm2 mem2,
    (if l_extended b then exists ps, parse parser_new (l_string b) = Ok (q, ps) else q = new_not_extended (l_string b))
    /\ metric_distance m q cand = Ok (d, m1)
    /\ metric_distance_and_ranges m q cand buf = Ok (d, m2, buf ++ new)
    /\ metric_distance_m mv (w_mem (pg_world g)) (ow_metric k) (l_query b) cand = Ok (d, mm1, mem1)
    /\ metric_distance_and_ranges_m mv (w_mem (pg_world g)) (ow_metric k) (l_query b) cand buf = Ok (d, mm2, mem2, buf ++ new).
Proof.
  intros g i k b mv cand buf m0 Hg Hi Hb H0. apply pinv_reached in Hg.
  destruct (search_sim _ _ _ b Hg Hi Hb) as (m & _ & Hm & S1 & S2).
  destruct (reached_result (ow_algo k) (ow_options k) (wanted (l_extended b) (l_string b)) cand (wanted_reached _ _)) as (d & new & _ & _ & R).
  destruct (R m Hm) as [(m' & _ & E) R']. destruct (R' buf) as (m'' & _ & E').
  destruct (R m0 H0) as [(m1 & _ & E1) R1]. destruct (R1 buf) as (m2 & _ & E2).
  destruct (S1 mv _ _ _ E) as (a1 & h1 & E3 & _). destruct (S2 mv _ _ _ _ _ E') as (a2 & h2 & E4 & _).
  exists (wanted (l_extended b) (l_string b)), d, new. do 6 eexists. split; [apply wanted_parse|].
  split; [exact E1|]. split; [exact E2|]. split; [exact E3|exact E4].
Qed.

Lemma c84_queries : forall g b,
  program_reached g -> In b (w_loans (pg_world g)) ->
  exists q, read_query_m (w_mem (pg_world g)) (l_query b) = Ok q
    /\ if l_extended b then exists ps, parse parser_new (l_string b) = Ok (q, ps) else q = new_not_extended (l_string b).
Proof. intros g b Hg Hb. apply queries_read; [apply pv_inv, pinv_reached, Hg|exact Hb]. Qed.

Lemma c84_calls : forall g,
  program_reached g ->
  (forall i k, nth_error (pg_metrics g) i = Some (Some k) -> exists r, metric_clone_m (w_mem (pg_world g)) (ow_metric k) = Ok r)
  /\ (forall i p, nth_error (w_parsers (pg_world g)) i = Some (Some p) ->
       (forall mv s, exists r, parse_m mv (w_mem (pg_world g)) p s = Ok r)
       /\ (exists r, parser_clone_m (w_mem (pg_world g)) p = Ok r)
       /\ (forall s, length s <= 64 -> exists r, parse_not_extended_m (w_mem (pg_world g)) p s = Ok r)).
Proof.
  intros g Hg. apply pinv_reached in Hg. split.
  - intros i k Hi. destruct (pv_metric _ Hg _ _ Hi) as (m & A & _). unfold metric_clone_m. rewrite (buffer_alive _ _ _ _ A). eexists. reflexivity.
  - intros i p Hi. destruct (calls_return_inv _ _ _ (pv_inv _ Hg) Hi) as (C1 & C2 & C3 & (l & El & Hl)).
    split; [exact C1|]. split; [exact C2|]. intros s Hs. apply C3. exists l. split; [exact El|lia].
Qed.

(** ** Running programs, for examples *)
Inductive pcommand :=
| PParser (c : command)
| PNew (a : algo)
| PClone (i : nat)
| PDrop (i : nat)
| PSet (i : nat) (x : setting)
| PDistance (i : nat) (mv : bool) (b : nat) (cand : str)
| PRanges (i : nat) (mv : bool) (b : nat) (cand : str) (buf : list range).

(** The state after the call, and what a search returns *)
Definition prun1 (g : program) (c : pcommand) : option (program * option (option distance * list range)) :=
  let '(MkProgram w ms) := g in
  let the i := match nth_error ms i with Some o => o | None => None end in
  match c with
  | PParser c => match run1 w c with Some w' => Some (MkProgram w' ms, None) | None => None end
  | PNew a => let '(mm, mem) := metric_new_m (w_mem w) a in
      Some (MkProgram (with_mem w mem) (ms ++ [Some (MkOwned a default_options mm)]), None)
  | PClone i =>
      match the i with
      | Some (MkOwned a o mm) =>
          match metric_clone_m (w_mem w) mm with
          | Ok (mm', mem) => Some (MkProgram (with_mem w mem) (ms ++ [Some (MkOwned a o mm')]), None)
          | _ => None
          end
      | None => None
      end
  | PDrop i =>
      match the i with
      | Some (MkOwned a o mm) => Some (MkProgram (with_mem w (metric_drop_m (w_mem w) mm)) (upd ms i None), None)
      | None => None
      end
  | PSet i x =>
      match the i with
      | Some (MkOwned a o mm) =>
          Some (MkProgram w (upd ms i (Some (MkOwned a (after_setting o x) (MkMetricM (mm_slab mm) (set_option (mm_rest mm) x))))), None)
      | None => None
      end
  | PDistance i mv n cand =>
      match the i, nth_error (w_loans w) n with
      | Some (MkOwned a o mm), Some b =>
          match metric_distance_m mv (w_mem w) mm (l_query b) cand with
          | Ok (d, mm', mem) => Some (MkProgram (with_mem w mem) (upd ms i (Some (MkOwned a o mm'))), Some (d, []))
          | _ => None
          end
      | _, _ => None
      end
  | PRanges i mv n cand buf =>
      match the i, nth_error (w_loans w) n with
      | Some (MkOwned a o mm), Some b =>
          match metric_distance_and_ranges_m mv (w_mem w) mm (l_query b) cand buf with
          | Ok (d, mm', mem, buf') => Some (MkProgram (with_mem w mem) (upd ms i (Some (MkOwned a o mm'))), Some (d, buf'))
          | _ => None
          end
      | _, _ => None
      end
  end.

Fixpoint prun (cs : list pcommand) (g : program) : option (program * list (option distance * list range)) :=
  match cs with
  | [] => Some (g, [])
  | c :: cs' =>
      match prun1 g c with
      | None => None
      | Some (g', r) =>
          match prun cs' g' with
          | None => None
          | Some (g'', rs) => Some (g'', match r with Some x => x :: rs | None => rs end)
          end
      end
  end.

Lemma prun1_step g c g' r : prun1 g c = Some (g', r) -> pstep g g'.
Proof.
  destruct g as [w ms]. unfold prun1.
  assert (T : forall i k, match nth_error ms i with Some o => o | None => None end = Some k -> nth_error ms i = Some (Some k))
    by (intros i k; destruct (nth_error ms i); congruence).
  destruct c as [c|a|i|i|i x|i mv n cand|i mv n cand buf].
  - destruct (run1 w c) as [w'|] eqn:E; [|discriminate]. intros [= <- <-]. constructor. eapply run1_step; exact E.
  - destruct (metric_new_m (w_mem w) a) as [mm mem] eqn:E. intros [= <- <-]. constructor. exact E.
  - destruct (match nth_error ms i with Some o => o | None => None end) as [[a o mm]|] eqn:Ei; [|discriminate]. apply T in Ei.
    destruct (metric_clone_m (w_mem w) mm) as [[mm' mem]| |] eqn:E; try discriminate. intros [= <- <-]. econstructor; eassumption.
  - destruct (match nth_error ms i with Some o => o | None => None end) as [[a o mm]|] eqn:Ei; [|discriminate]. apply T in Ei.
    intros [= <- <-]. econstructor. exact Ei.
  - destruct (match nth_error ms i with Some o => o | None => None end) as [[a o mm]|] eqn:Ei; [|discriminate]. apply T in Ei.
    intros [= <- <-]. econstructor. exact Ei.
  - destruct (match nth_error ms i with Some o => o | None => None end) as [[a o mm]|] eqn:Ei; [|discriminate]. apply T in Ei.
    destruct (nth_error (w_loans w) n) as [b|] eqn:Eb; [|discriminate]. apply nth_error_In in Eb.
    destruct (metric_distance_m mv (w_mem w) mm (l_query b) cand) as [[[d mm'] mem]| |] eqn:E; try discriminate.
    intros [= <- <-]. eapply ps_distance; eassumption.
  - destruct (match nth_error ms i with Some o => o | None => None end) as [[a o mm]|] eqn:Ei; [|discriminate]. apply T in Ei.
    destruct (nth_error (w_loans w) n) as [b|] eqn:Eb; [|discriminate]. apply nth_error_In in Eb.
    destruct (metric_distance_and_ranges_m mv (w_mem w) mm (l_query b) cand buf) as [[[[d mm'] mem] buf']| |] eqn:E; try discriminate.
    intros [= <- <-]. eapply ps_distance_and_ranges; eassumption.
Qed.

Lemma prun_reached cs : forall g g' rs, program_reached g -> prun cs g = Some (g', rs) -> program_reached g'.
Proof.
  induction cs as [|c cs IH]; cbn [prun]; intros g g' rs H E; [injection E as <- _; exact H|].
  destruct (prun1 g c) as [[g1 r]|] eqn:E1; [|discriminate]. destruct (prun cs g1) as [[g2 rs']|] eqn:E2; [|discriminate].
  injection E as <- _. eapply IH; [|exact E2]. eapply pgr_step; [exact H|]. eapply prun1_step; exact E1.
Qed.

End Programs.

Definition empty_program : program := MkProgram empty_world [].
