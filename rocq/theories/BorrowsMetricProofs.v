(** Proofs about the metrics with the rules on aliasing (BorrowsMetric.v). *)
From Verif Require MemoryProofs.
From Verif Require MemoryMetricProofs.
From Verif Require Import Prelude Chars Utils Candidate MatchedRanges Query Parser Scoring Slab Fzf FzfV1 FzfV2 Api History
  MemoryMetric Borrows BorrowsMetric Spec PreludeProofs CharsProofs ParserProofs V1Proofs BorrowsProofs BorrowsParser ApiProofs Claims1.
Local Open Scope nat_scope.

(** ** alloc_chars *)
Lemma chars_fill_words_alloc text : forall chars n, chars_fill chars n text = words_alloc chars n text.
Proof.
  induction text as [|c text IH]; intros chars n; cbn [chars_fill words_alloc]; [reflexivity|].
  destruct (set_idx chars n c); cbn [bind]; auto.
Qed.

(** What a metric's slab is left with: a buffer of its own, and the others as before *)
Definition slab_at (h : bheap char) (v : bvec) (l : list char) : Prop :=
  exists lc, buf h (v_addr v) lc /\ base (v_tag v) lc /\ map fst lc = l.

Definition others (h h' : bheap char) (a a' : nat) : Prop :=
  forall b x, b <> a -> buf h b x -> buf h' b x /\ b <> a'.

Lemma alloc_chars_b_ok g mem mb text l sl l' : slab_at (bm_chars mem) (mb_slab mb) l ->
  candidate_alloc l text = Ok (sl, l') ->
  exists r v h, alloc_chars_b g mem mb text = Ok (r, MkMetricB v (mb_rest mb), set_chars mem h)
    /\ slab_at h v l' /\ read h r = Ok (sl, h) /\ others (bm_chars mem) h (v_addr (mb_slab mb)) (v_addr v).
Proof.
  intros (lc & B & F & V) E. unfold alloc_chars_b.
  destruct (vec_grow_ok _ g _ _ _ (byte_len text) 0%N B F) as (v & h & lc1 & G & B1 & F1 & V1 & N1 & O1). rewrite G. cbn [bind].
  unfold candidate_alloc in E. apply bind_ok in E as ([l1 n] & E1 & E). apply bind_ok in E as (sl1 & E2 & E). injection E as <- <-.
  rewrite chars_fill_words_alloc in E1. rewrite grown in E1. rewrite V, <- (map_length fst lc), V in V1. rewrite <- V1 in E1.
  pose proof (fill_chars_b_ok text _ _ _ 0 B1 F1) as K. rewrite E1 in K. destruct K as (h2 & lc2 & K1 & U2 & F2 & V2). rewrite K1. cbn [bind].
  apply MemoryMetricProofs.slice_to_length in E2 as [Hn ->]. pose proof (upto_buf _ _ _ _ _ _ B1 U2) as B2.
  destruct (vec_slice_ok _ _ _ _ 0 n B2 F2) as (h3 & lc3 & r & E3 & U3 & C3 & F3 & P3 & _); [lia|rewrite <- (map_length fst lc2), V2; exact Hn|].
  rewrite E3. cbn [bind]. rewrite Nat.sub_0_r in P3. cbn [skipn] in P3. rewrite V2 in P3. pose proof (upto_buf _ _ _ _ _ _ B2 U3) as B3.
  eexists _, _, _. split; [reflexivity|]. split; [|split].
  - exists lc3. split; [exact B3|]. split; [exact F3|]. rewrite (chg_values _ _ _ _ C3). exact V2.
  - eapply read_ok; eassumption.
  - intros b x Hb K. pose proof (buf_lt _ _ _ _ K) as Lb. assert (X : b <> v_addr v) by (destruct N1; lia). split; [|exact X].
    eapply upto_other; [exact X|exact U3|]. eapply upto_other; [exact X|exact U2|]. apply O1; assumption.
Qed.

Lemma store_changes_none h v l : forall i, store_changes h v i l l = Ok h.
Proof. induction l as [|x l IH]; intros i; cbn [store_changes]; [reflexivity|]. rewrite N.eqb_refl. cbn [bind]. apply IH. Qed.

(** ** Queries *)

(** What is needed of a query: it can be read part by part, and that changes nothing *)
Definition psim1 (mem : bmemory) (pb : pattern_b) (p : pattern) : Prop :=
  read_pattern_b mem pb = Ok (p, mem) /\ b_len (pb_text pb) = length (p_text p).
Definition csim1 (mem : bmemory) (r : bref) (ps : list pattern) : Prop :=
  exists pbs, read (bm_patterns mem) r = Ok (pbs, bm_patterns mem) /\ Forall2 (psim1 mem) pbs ps.
Definition qsim (mem : bmemory) (qb : query_b) (q : query) : Prop :=
  match qb, q with
  | NotExtendedB pb, NotExtended p => psim1 mem pb p
  | ExtendedB r, Extended cs => exists rs, read (bm_conditions mem) r = Ok (rs, bm_conditions mem) /\ b_len r = length rs /\ Forall2 (csim1 mem) rs cs
  | _, _ => False
  end.

Lemma prel_psim mem l a n pb p : buf (bm_chars mem) a l -> prel l a n pb p -> psim1 mem pb p.
Proof. intros B P. split; [eapply prel_read; eassumption|]. destruct P as [P _]. symmetry. eapply pts_length; exact P. Qed.

Lemma reads_qsim mem l a L b D d qb q : buf (bm_chars mem) a l -> buf (bm_patterns mem) b L -> buf (bm_conditions mem) d D ->
  reads l a L b D d qb q -> qsim mem qb q.
Proof.
  intros A1 A2 A3. destruct qb as [r|pb], q as [cs|p]; cbn [reads qsim]; try contradiction.
  - intros (rs & P & F). exists rs. split; [eapply read_ok; eassumption|]. split; [symmetry; eapply pts_length; exact P|].
    eapply MemoryProofs.Forall2_imp; [|exact F]. intros x y (xs & Px & Fx). exists xs. split; [eapply read_ok; eassumption|].
    eapply MemoryProofs.Forall2_imp; [|exact Fx]. intros ? ?. apply prel_psim. exact A1.
  - eapply prel_psim. exact A1.
Qed.

Lemma qsim_empty mem qb q : qsim mem qb q -> q_is_empty_b qb = q_is_empty q.
Proof.
  destruct qb as [r|pb], q as [cs|p]; cbn [qsim q_is_empty_b q_is_empty]; try contradiction.
  - intros (rs & _ & -> & F). destruct F; reflexivity.
  - intros [_ ->]. unfold p_is_empty. destruct (p_text p); reflexivity.
Qed.

(** ** A search, for one of the two metrics *)
Section Search.
Context {UC : unicode}.
Context {St : Type}.
Variable inj : St -> metric.
Variable alloc : St -> str -> res (list char * St).
Variable ceq : St -> pattern -> char_eq_fn.
Variable sch : St -> scheme.
Variable fuz : bool -> St -> pattern -> candidate -> mranges -> res (option score * St * mranges).
Hypothesis score_inj : forall R st p c rg,
  metric_score R (inj st) p c rg = let* '(sc, st, rg) := fzf_score ceq sch fuz R st p c rg in Ok (sc, inj st, rg).
Hypothesis fuzzy_inj : forall R st p c rg,
  metric_fuzzy R (inj st) p c rg = let* '(sc, st, rg) := fuz R st p c rg in Ok (sc, inj st, rg).
Hypothesis alloc_slab : forall st s sl st', alloc st s = Ok (sl, st') -> exists l,
  candidate_alloc (slab_of (inj st)) s = Ok (sl, l) /\ inj st' = with_slab (inj st) l.
Hypothesis fuzzy_slab : forall R st p c rg sc st' rg', fuz R st p c rg = Ok (sc, st', rg') -> slab_of (inj st') = slab_of (inj st).

(** A metric in memory *)
Definition enc (v : bvec) (st : St) : metric_b := MkMetricB v (with_slab (inj st) []).

Let score_slab := MemoryMetricProofs.score_slab inj ceq sch fuz fuzzy_slab.
Let condition_slab := MemoryMetricProofs.condition_slab inj ceq sch fuz fuzzy_slab.

Lemma call_b_eq f g mem v st pb p cb c rg :
  (forall st, f (inj st) p c rg = let* '(sc, st, rg) := g st in Ok (sc, inj st, rg)) ->
  (forall sc st' rg', g st = Ok (sc, st', rg') -> slab_of (inj st') = slab_of (inj st)) ->
  slab_at (bm_chars mem) v (slab_of (inj st)) -> read_pattern_b mem pb = Ok (p, mem) -> read_candidate_b mem cb = Ok (c, mem) ->
  call_b f mem (enc v st) pb cb rg = let* '(sc, st, rg) := g st in Ok (sc, enc v st, mem, rg).
Proof.
  intros Hf Hg (l & A & _ & V) Ep Ec. unfold call_b, enc. cbn [mb_slab mb_rest]. rewrite Ep. cbn [bind]. rewrite Ec. cbn [bind].
  rewrite (buf_cells _ _ _ _ A). cbn [bind]. rewrite V.
  rewrite MemoryMetricProofs.with_slab_twice, MemoryMetricProofs.with_slab_same, Hf. destruct (g st) as [[[sc st'] rg']| |] eqn:E; cbn [bind]; [|reflexivity|reflexivity].
  rewrite (Hg _ _ _ eq_refl), store_changes_none. cbn [bind]. rewrite set_chars_same. reflexivity.
Qed.

Lemma score_condition_b_eq R mem v cb c : read_candidate_b mem cb = Ok (c, mem) -> forall pbs ps st rg,
  slab_at (bm_chars mem) v (slab_of (inj st)) -> Forall2 (psim1 mem) pbs ps ->
  score_condition_b R mem (enc v st) pbs cb rg =
    let* '(sc, st, rg) := score_condition ceq sch fuz R st ps c rg in Ok (sc, enc v st, mem, rg).
Proof.
  intros Hc pbs ps st rg A F. revert st rg A. induction F as [|pb p pbs ps [E1 _] F IH]; intros st rg A.
  - reflexivity.
  - cbn [score_condition_b score_condition].
    rewrite (call_b_eq (metric_score R) (fun st => fzf_score ceq sch fuz R st p c rg) mem v st pb p cb c rg); auto.
    2:{ intros ? ? ?. apply score_slab. }
    destruct (fzf_score ceq sch fuz R st p c rg) as [[[sc st1] rg1]| |] eqn:E3; cbn [bind]; [|reflexivity|reflexivity].
    destruct sc; [reflexivity|]. apply IH. rewrite (score_slab _ _ _ _ _ _ _ _ E3). exact A.
Qed.

Lemma score_conditions_b_eq R mem v cb c : read_candidate_b mem cb = Ok (c, mem) -> forall rs conds st total rg,
  slab_at (bm_chars mem) v (slab_of (inj st)) -> Forall2 (csim1 mem) rs conds ->
  score_conditions_b R mem (enc v st) rs cb total rg =
    let* '(sc, st, rg) := score_conditions ceq sch fuz R st conds c total rg in Ok (sc, enc v st, mem, rg).
Proof.
  intros Hc rs conds st total rg A F. revert st total rg A. induction F as [|r ps rs conds (pbs & E0 & E1) F IH]; intros st total rg A.
  - reflexivity.
  - cbn [score_conditions_b score_conditions]. rewrite E0. cbn [bind]. rewrite set_patterns_same.
    rewrite (score_condition_b_eq R mem v cb c Hc pbs ps st rg A E1).
    destruct (score_condition ceq sch fuz R st ps c rg) as [[[sc st1] rg1]| |] eqn:E3; cbn [bind]; [|reflexivity|reflexivity].
    destruct sc; [|reflexivity]. apply IH. rewrite (condition_slab _ _ _ _ _ _ _ _ E3). exact A.
Qed.

(** The search with references does what the search without does, if the query can be read before and after the characters of the
    candidate are written. *)
Lemma distance_b_eq g R mem v st qb q cand bf d st' bf' :
  slab_at (bm_chars mem) v (slab_of (inj st)) -> qsim mem qb q ->
  (forall h a', others (bm_chars mem) h (v_addr v) a' -> qsim (set_chars mem h) qb q) ->
  fzf_distance alloc ceq sch fuz R st q cand bf = Ok (d, st', bf') ->
  exists v' h, distance_b g R mem (enc v st) qb cand bf = Ok (d, enc v' st', set_chars mem h, bf')
    /\ slab_at h v' (slab_of (inj st')) /\ others (bm_chars mem) h (v_addr v) (v_addr v').
Proof.
  intros A Eq F E. unfold fzf_distance in E. unfold distance_b. rewrite (qsim_empty _ _ _ Eq).
  destruct (q_is_empty q).
  { injection E as <- <- <-. exists v, (bm_chars mem). rewrite set_chars_same. split; [reflexivity|]. split; [exact A|]. intros b x Hb K. auto. }
  apply bind_ok in E as ([c st1] & E1 & E).
  assert (G : exists cb v' h, (if str_is_ascii cand then Ok (AsciiB (encode cand), enc v st, mem)
         else let* '(r, mb, mem) := alloc_chars_b g mem (enc v st) cand in Ok (UnicodeB r, mb, mem)) = Ok (cb, enc v' st1, set_chars mem h)
      /\ slab_at h v' (slab_of (inj st1)) /\ read_candidate_b (set_chars mem h) cb = Ok (c, set_chars mem h)
      /\ others (bm_chars mem) h (v_addr v) (v_addr v')).
  { destruct (str_is_ascii cand).
    - injection E1 as <- <-. exists (AsciiB (encode cand)), v, (bm_chars mem). rewrite set_chars_same. split; [reflexivity|].
      split; [exact A|]. split; [reflexivity|]. intros b x Hb K. auto.
    - apply bind_ok in E1 as ([sl st2] & E1 & E2). injection E2 as <- <-. destruct (alloc_slab _ _ _ _ E1) as (l & E2 & E3).
      destruct (alloc_chars_b_ok g mem (enc v st) cand _ _ _ A E2) as (r & v' & h & E4 & K & D & Fr). rewrite E4. cbn [bind mb_rest enc].
      exists (UnicodeB r), v', h. split; [|split; [|split]].
      + unfold enc. rewrite E3, MemoryMetricProofs.with_slab_twice. reflexivity.
      + rewrite E3, MemoryMetricProofs.slab_with_slab. exact K.
      + cbn [read_candidate_b set_chars bm_chars]. rewrite D. reflexivity.
      + exact Fr. }
  destruct G as (cb & v' & h & -> & K & Ec & Fr). cbn [bind]. pose proof (F _ _ Fr) as Eq'.
  unfold fzf_search in E. apply bind_ok in E as ([[sc st2] rg] & E2 & E). injection E as <- <- <-.
  assert (G : (match qb with
               | NotExtendedB p => call_b (metric_fuzzy R) (set_chars mem h) (enc v' st1) p cb (mranges_from bf)
               | ExtendedB r => let* '(conds, hc) := read (bm_conditions (set_chars mem h)) r in
                   score_conditions_b R (set_conditions (set_chars mem h) hc) (enc v' st1) conds cb 0 (mranges_from bf)
               end) = Ok (sc, enc v' st2, set_chars mem h, rg) /\ slab_of (inj st2) = slab_of (inj st1)).
  { destruct qb as [r|pb], q as [cs|p]; cbn [qsim] in Eq'; try contradiction.
    - destruct Eq' as (rs & E3 & _ & E4). rewrite E3. cbn [bind]. rewrite set_conditions_same.
      rewrite (score_conditions_b_eq R _ v' cb c Ec rs cs st1 0%Z (mranges_from bf) K E4), E2. split; [reflexivity|].
      clear -E2 condition_slab. revert st1 E2. generalize 0%Z, (mranges_from bf). induction cs as [|x cs IH]; cbn [score_conditions]; intros t b st1 E2.
      + injection E2 as _ <- _. reflexivity.
      + apply bind_ok in E2 as ([[s1 st3] r1] & E1 & E2). apply condition_slab in E1. destruct s1.
        * rewrite <- E1. eapply IH; exact E2.
        * injection E2 as _ <- _. exact E1.
    - destruct Eq' as [E3 _].
      rewrite (call_b_eq (metric_fuzzy R) (fun st => fuz R st p c (mranges_from bf)) _ v' st1 pb p cb c (mranges_from bf)); auto.
      2:{ intros ? ? ?. apply fuzzy_slab. }
      rewrite E2. split; [reflexivity|]. eapply fuzzy_slab; exact E2. }
  destruct G as [G Es]. rewrite G. cbn [bind]. exists v', h. split; [reflexivity|]. split; [|exact Fr]. rewrite Es. exact K.
Qed.

End Search.

(** ** Programs *)
Section Programs.
Context {UC : unicode}.

Lemma fzf_distance_b g R mem v m qb q cand bf d m' bf' :
  slab_at (bm_chars mem) v (slab_of m) -> qsim mem qb q ->
  (forall h a', others (bm_chars mem) h (v_addr v) a' -> qsim (set_chars mem h) qb q) ->
  match m with
  | V1 m => let* '(d, m, bf) := v1_fzf_distance R m q cand bf in Ok (d, V1 m, bf)
  | V2 m => let* '(d, m, bf) := v2_fzf_distance R m q cand bf in Ok (d, V2 m, bf)
  end = Ok (d, m', bf') ->
  exists v' h, distance_b g R mem (MkMetricB v (with_slab m [])) qb cand bf = Ok (d, MkMetricB v' (with_slab m' []), set_chars mem h, bf')
    /\ slab_at h v' (slab_of m') /\ others (bm_chars mem) h (v_addr v) (v_addr v').
Proof.
  intros A Eq F E. destruct m as [m|m]; apply bind_ok in E as ([[d1 m1] b1] & E1 & E); injection E as <- <- <-.
  - apply (distance_b_eq V1 v1_alloc_chars v1_char_eq v1_scoring_scheme v1_fuzzy) with (q := q); auto.
    + intros st s sl st' H. unfold v1_alloc_chars in H. apply bind_ok in H as ([x y] & H & H'). injection H' as <- <-. exists y. auto.
    + intros R' st p c rg sc st' rg' H. apply MemoryMetricProofs.v1_fuzzy_same in H. subst. reflexivity.
  - apply (distance_b_eq V2 v2_alloc_chars v2_char_eq v2_scoring_scheme v2_fuzzy) with (q := q); auto.
    + intros st s sl st' H. unfold v2_alloc_chars in H. apply bind_ok in H as ([x y] & H & H'). injection H' as <- <-. exists y. auto.
    + intros R' st p c rg sc st' rg' H. apply MemoryMetricProofs.v2_fuzzy_slab in H. exact H.
Qed.

Lemma metric_distance_and_ranges_b_eq g mem v m qb q cand bf d m' bf' :
  slab_at (bm_chars mem) v (slab_of m) -> qsim mem qb q ->
  (forall h a', others (bm_chars mem) h (v_addr v) a' -> qsim (set_chars mem h) qb q) ->
  metric_distance_and_ranges m q cand bf = Ok (d, m', bf') ->
  exists v' h, metric_distance_and_ranges_b g mem (MkMetricB v (with_slab m [])) qb cand bf
      = Ok (d, MkMetricB v' (with_slab m' []), set_chars mem h, bf')
    /\ slab_at h v' (slab_of m') /\ others (bm_chars mem) h (v_addr v) (v_addr v').
Proof.
  intros A Eq F E. unfold metric_distance_and_ranges_b. eapply fzf_distance_b; eassumption.
Qed.

Lemma metric_distance_b_eq g mem v m qb q cand d m' :
  slab_at (bm_chars mem) v (slab_of m) -> qsim mem qb q ->
  (forall h a', others (bm_chars mem) h (v_addr v) a' -> qsim (set_chars mem h) qb q) ->
  metric_distance m q cand = Ok (d, m') ->
  exists v' h, metric_distance_b g mem (MkMetricB v (with_slab m [])) qb cand
      = Ok (d, MkMetricB v' (with_slab m' []), set_chars mem h)
    /\ slab_at h v' (slab_of m') /\ others (bm_chars mem) h (v_addr v) (v_addr v').
Proof.
  intros A Eq F E. unfold metric_distance_b.
  assert (G : exists bf', match m with
    | V1 m => let* '(d, m, bf) := v1_fzf_distance false m q cand [] in Ok (d, V1 m, bf)
    | V2 m => let* '(d, m, bf) := v2_fzf_distance false m q cand [] in Ok (d, V2 m, bf)
    end = Ok (d, m', bf')).
  { destruct m as [m|m]; cbn [metric_distance] in E; apply bind_ok in E as ([d1 m1] & E1 & E); injection E as <- <-;
      apply bind_ok in E1 as ([[d2 m2] b2] & E1 & E); injection E as <- <-; rewrite E1; exists b2; reflexivity. }
  destruct G as (bf' & G). destruct (fzf_distance_b g _ _ _ _ _ _ _ _ _ _ _ A Eq F G) as (v' & h & -> & K). cbn [bind]. exists v', h. auto.
Qed.

(** Writing to a buffer which is not a parser's *)
Lemma inv_frame mem ps ls h a a' : inv (MkBWorld mem ps ls) ->
  (forall i p, nth_error ps i = Some (Some p) -> v_addr (pb_chars p) <> a) ->
  others (bm_chars mem) h a a' -> inv (MkBWorld (set_chars mem h) ps ls).
Proof.
  intros [I1 I2 I3] Ha F. cbn [bw_mem bw_parsers bw_loans] in *. constructor; cbn [bw_mem bw_parsers bw_loans].
  - intros i p H. destruct (I1 _ _ H) as (l & L & D & ((K1 & K1') & K2 & K3) & Hl). exists l, L, D. split; [|exact Hl].
    split; [|split; assumption]. cbn [set_chars bm_chars]. split; [|exact K1']. apply F; [eapply Ha; exact H|exact K1].
  - exact I2.
  - intros b Hb. destruct (I3 _ Hb) as (p & l & L & D & H & ((K1 & K1') & K2 & K3) & R). exists p, l, L, D. split; [exact H|]. split; [|exact R].
    split; [|split; assumption]. cbn [set_chars bm_chars]. split; [|exact K1']. apply F; [eapply Ha; exact H|exact K1].
Qed.

Lemma loan_qsim w b : inv w -> In b (bw_loans w) -> qsim (bw_mem w) (bl_query b) (wanted (bl_extended b) (bl_string b)).
Proof.
  intros H Hb. destruct (iv_loans _ H _ Hb) as (p & l & L & D & _ & ((K1 & _) & (K2 & _) & (K3 & _)) & R). eapply reads_qsim; eassumption.
Qed.

Lemma wanted_same e s : wanted e s = MemoryProofs.wanted e s.
Proof. reflexivity. Qed.

(** What holds of every program: the buffers of parsers and metrics are alive, are all different and belong to their owners, and the
    metrics hold what the metrics without memory hold after the same calls. *)
Record pinv (g : bprogram) : Prop := MkPinv {
  pv_inv : inv (bp_world g);
  pv_metric : forall i k, nth_error (bp_metrics g) i = Some (Some k) -> exists m,
    slab_at (bm_chars (bw_mem (bp_world g))) (mb_slab (bo_metric k)) (slab_of m)
    /\ mb_rest (bo_metric k) = with_slab m [] /\ metric_reached (bo_algo k) (bo_options k) m;
  pv_parsers : forall i k j p, nth_error (bp_metrics g) i = Some (Some k) ->
    nth_error (bw_parsers (bp_world g)) j = Some (Some p) -> v_addr (pb_chars p) <> v_addr (mb_slab (bo_metric k));
  pv_apart : forall i j k k', i <> j -> nth_error (bp_metrics g) i = Some (Some k) ->
    nth_error (bp_metrics g) j = Some (Some k') -> v_addr (mb_slab (bo_metric k)) <> v_addr (mb_slab (bo_metric k'))
}.

(** A new metric, with a slab of its own; the slab of metric [i] may have been read *)
Lemma pinv_snoc w ms h a o v m : pinv (MkBProgram w ms) -> metric_reached a o m ->
  v_addr v = length (hp (bm_chars (bw_mem w))) -> slab_at h v (slab_of m) ->
  (forall j p x, nth_error (bw_parsers w) j = Some (Some p) -> buf (bm_chars (bw_mem w)) (v_addr (pb_chars p)) x -> buf h (v_addr (pb_chars p)) x) ->
  (forall j k l, nth_error ms j = Some (Some k) -> slab_at (bm_chars (bw_mem w)) (mb_slab (bo_metric k)) l -> slab_at h (mb_slab (bo_metric k)) l) ->
  pinv (MkBProgram (with_bmem w (set_chars (bw_mem w) h)) (ms ++ [Some (MkBOwned a o (MkMetricB v (with_slab m [])))])).
Proof.
  intros [I1 I2 I3 I4] Hm Hv Hs Fp Fm. cbn [bp_world bp_metrics] in *. destruct w as [mem ps ls]. cbn [bw_mem bw_parsers bw_loans with_bmem] in *.
  assert (Lp : forall j p, nth_error ps j = Some (Some p) -> v_addr (pb_chars p) < length (hp (bm_chars mem))).
  { intros j p H. destruct (iv_live _ I1 _ _ H) as (l & L & D & ((K1 & _) & _) & _). eapply buf_lt; exact K1. }
  assert (Lm : forall j k, nth_error ms j = Some (Some k) -> v_addr (mb_slab (bo_metric k)) < length (hp (bm_chars mem))).
  { intros j k H. destruct (I2 _ _ H) as (x & (lc & K & _) & _). eapply buf_lt; exact K. }
  constructor; cbn [bp_world bp_metrics bw_mem bw_parsers with_bmem bw_loans].
  - destruct I1 as [J1 J2 J3]. cbn [bw_mem bw_parsers bw_loans] in *. constructor; cbn [bw_mem bw_parsers bw_loans].
    + intros i p H. destruct (J1 _ _ H) as (l & L & D & ((K1 & K1') & K2 & K3) & Hl). exists l, L, D. split; [|exact Hl].
      split; [|split; assumption]. cbn [set_chars bm_chars]. split; [|exact K1']. eapply Fp; eassumption.
    + exact J2.
    + intros b Hb. destruct (J3 _ Hb) as (p & l & L & D & H & ((K1 & K1') & K2 & K3) & R). exists p, l, L, D. split; [exact H|]. split; [|exact R].
      split; [|split; assumption]. cbn [set_chars bm_chars]. split; [|exact K1']. eapply Fp; eassumption.
  - intros i k H. apply MemoryProofs.nth_error_snoc in H as [H|[_ [= <-]]].
    + destruct (I2 _ _ H) as (x & K & R). exists x. split; [|exact R]. cbn [set_chars bm_chars]. eapply Fm; eassumption.
    + exists m. cbn [bo_metric mb_slab mb_rest bo_algo bo_options set_chars bm_chars]. auto.
  - intros i k j p H H'. apply MemoryProofs.nth_error_snoc in H as [H|[_ [= <-]]]; [eapply I3; eassumption|].
    cbn [bo_metric mb_slab]. apply Lp in H'. lia.
  - intros i j k k' Hij H H'. apply MemoryProofs.nth_error_snoc in H as [H|[-> [= <-]]]; apply MemoryProofs.nth_error_snoc in H' as [H'|[-> [= <-]]];
      cbn [bo_metric mb_slab].
    + eapply I4; eassumption.
    + apply Lm in H. lia.
    + apply Lm in H'. lia.
    + congruence.
Qed.

(** A call which works on metric [i] only *)
Lemma pinv_at w ms i k ok h : pinv (MkBProgram w ms) -> nth_error ms i = Some (Some k) ->
  (forall b x, b <> v_addr (mb_slab (bo_metric k)) -> buf (bm_chars (bw_mem w)) b x ->
     buf h b x /\ forall k', ok = Some k' -> b <> v_addr (mb_slab (bo_metric k'))) ->
  (forall k', ok = Some k' -> exists m, slab_at h (mb_slab (bo_metric k')) (slab_of m)
     /\ mb_rest (bo_metric k') = with_slab m [] /\ metric_reached (bo_algo k') (bo_options k') m) ->
  pinv (MkBProgram (with_bmem w (set_chars (bw_mem w) h)) (upd ms i ok)).
Proof.
  intros [I1 I2 I3 I4] Hi F Ho. cbn [bp_world bp_metrics] in *. destruct w as [mem ps ls]. cbn [bw_mem bw_parsers bw_loans with_bmem] in *.
  assert (Hlt : i < length ms) by (apply nth_error_Some; congruence).
  assert (N : forall j x, nth_error (upd ms i ok) j = Some x -> (j = i /\ x = ok) \/ (j <> i /\ nth_error ms j = Some x)).
  { intros j x H. rewrite nth_error_upd in H. destruct (Nat.eqb_spec j i) as [->|Hj]; [|auto].
    apply Nat.ltb_lt in Hlt. rewrite Hlt in H. cbn [andb] in H. left. split; [reflexivity|congruence]. }
  constructor; cbn [bp_world bp_metrics bw_mem bw_parsers with_bmem bw_loans set_chars bm_chars].
  - apply (inv_frame mem ps ls h (v_addr (mb_slab (bo_metric k))) (length (hp h))); [exact I1| |].
    + intros j p H. eapply I3; eassumption.
    + intros b x Hb K. apply F in K; [|exact Hb]. destruct K as [K _]. split; [exact K|]. apply buf_lt in K. lia.
  - intros j k' H. apply N in H as [[-> E]|[Hj H]]; [apply Ho; congruence|].
    destruct (I2 _ _ H) as (m & (lc & K & K') & R). exists m. split; [|exact R]. exists lc. split; [|exact K']. apply F; [|exact K]. eapply I4; eassumption.
  - intros j k' n p H H'. apply N in H as [[-> E]|[Hj H]]; [|eapply I3; eassumption].
    destruct (iv_live _ I1 _ _ H') as (l & L & D & ((K & _) & _) & _). cbn [bw_mem] in K.
    destruct (F _ _ (I3 _ _ _ _ Hi H') K) as [_ G]. apply G. congruence.
  - intros j n q q' Hjn H H'. apply N in H as [[-> E]|[Hj H]]; apply N in H' as [[-> E']|[Hk H']].
    + contradiction.
    + destruct (I2 _ _ H') as (m & (lc & K & _) & _). destruct (F _ _ (I4 _ _ _ _ Hk H' Hi) K) as [_ G]. specialize (G _ (eq_sym E)). congruence.
    + destruct (I2 _ _ H) as (m & (lc & K & _) & _). destruct (F _ _ (I4 _ _ _ _ Hj H Hi) K) as [_ G]. specialize (G _ (eq_sym E')). congruence.
    + exact (I4 _ _ _ _ Hjn H H').
Qed.

(** A search through references returns what the one without memory returns *)
Lemma search_sim g i k b : pinv g -> nth_error (bp_metrics g) i = Some (Some k) -> In b (bw_loans (bp_world g)) ->
  exists m, metric_reached (bo_algo k) (bo_options k) m
    /\ (forall gr cand d m', metric_distance m (wanted (bl_extended b) (bl_string b)) cand = Ok (d, m') ->
          exists v' h, metric_distance_b gr (bw_mem (bp_world g)) (bo_metric k) (bl_query b) cand
              = Ok (d, MkMetricB v' (with_slab m' []), set_chars (bw_mem (bp_world g)) h)
            /\ slab_at h v' (slab_of m') /\ others (bm_chars (bw_mem (bp_world g))) h (v_addr (mb_slab (bo_metric k))) (v_addr v'))
    /\ (forall gr cand bf d m' bf', metric_distance_and_ranges m (wanted (bl_extended b) (bl_string b)) cand bf = Ok (d, m', bf') ->
          exists v' h, metric_distance_and_ranges_b gr (bw_mem (bp_world g)) (bo_metric k) (bl_query b) cand bf
              = Ok (d, MkMetricB v' (with_slab m' []), set_chars (bw_mem (bp_world g)) h, bf')
            /\ slab_at h v' (slab_of m') /\ others (bm_chars (bw_mem (bp_world g))) h (v_addr (mb_slab (bo_metric k))) (v_addr v')).
Proof.
  intros I Hi Hb. destruct g as [w ms]. cbn [bp_world bp_metrics] in *. destruct (pv_metric _ I _ _ Hi) as (m & A & Er & Hm).
  cbn [bp_world] in A. pose proof (loan_qsim _ _ (pv_inv _ I) Hb) as Eq. cbn [bp_world] in Eq.
  assert (F : forall h a', others (bm_chars (bw_mem w)) h (v_addr (mb_slab (bo_metric k))) a' ->
     qsim (set_chars (bw_mem w) h) (bl_query b) (wanted (bl_extended b) (bl_string b))).
  { intros h a' Fr. pose proof (pv_inv _ I) as I'. cbn [bp_world] in I'. destruct w as [mem ps ls]. cbn [bw_mem bw_loans] in *.
    assert (J : inv (MkBWorld (set_chars mem h) ps ls)).
    { apply (inv_frame mem ps ls h _ a') with (2 := fun j p H => pv_parsers _ I i k j p Hi H); assumption. }
    apply (loan_qsim _ _ J Hb). }
  assert (Ek : bo_metric k = MkMetricB (mb_slab (bo_metric k)) (with_slab m [])) by (rewrite <- Er; destruct (bo_metric k); reflexivity).
  exists m. split; [exact Hm|]. split.
  - intros gr cand d m' E. destruct (metric_distance_b_eq gr _ _ _ _ _ cand d m' A Eq F E) as (v' & h & G). rewrite <- Ek in G. eauto.
  - intros gr cand bf d m' bf' E.
    destruct (metric_distance_and_ranges_b_eq gr _ _ _ _ _ cand bf d m' bf' A Eq F E) as (v' & h & G). rewrite <- Ek in G. eauto.
Qed.

Lemma slab_clone h v l : slab_at h v l -> exists h' v', vec_clone h v = Ok (v', h') /\ v_addr v' = length (hp h)
  /\ slab_at h' v' l /\ slab_at h' v l /\ (forall b x, b <> v_addr v -> buf h b x -> buf h' b x).
Proof.
  intros (lc & B & F & V). destruct (vec_clone_ok _ _ _ _ B F) as (h' & lc' & v' & E & B' & C & F' & N & B2 & O).
  exists h', v'. split; [exact E|]. split; [exact N|]. split; [|split; [|exact O]].
  - exists (fresh (v_tag v') (map fst lc)). split; [exact B2|]. split; [apply fresh_base|]. rewrite fresh_values. exact V.
  - exists lc'. split; [exact B'|]. split; [exact F'|]. rewrite (chg_values _ _ _ _ C). exact V.
Qed.

Lemma slab_drop h v l : slab_at h v l -> exists h', vec_drop h v = Ok h' /\ (forall b x, b <> v_addr v -> buf h b x -> buf h' b x).
Proof.
  intros (lc & B & F & V). destruct (vec_drop_ok _ _ _ _ B F) as (h' & E & U). exists h'. split; [exact E|].
  intros b x Hb K. unfold buf. rewrite U, nth_error_upd. destruct (Nat.eqb_spec b (v_addr v)); [congruence|exact K].
Qed.

Lemma pinv_step g g' : pinv g -> bpstep g g' -> pinv g'.
Proof.
  intros I H. destruct H as [w w' ms H|w ms a mb mem E|w ms i a o mb mb' mem Hi E|w ms i a o mb mem Hi E|w ms i a o mb x Hi
    |w ms i a o mb gr b cand d mb' mem Hi Hb E|w ms i a o mb gr b cand bf d mb' mem bf' Hi Hb E].
  - pose proof (pv_inv _ I) as I1. cbn [bp_world] in I1.
    assert (Fr : forall i k, nth_error ms i = Some (Some k) -> forall x, buf (bm_chars (bw_mem w)) (v_addr (mb_slab (bo_metric k))) x ->
       buf (bm_chars (bw_mem w')) (v_addr (mb_slab (bo_metric k))) x
       /\ forall j p, nth_error (bw_parsers w') j = Some (Some p) -> v_addr (mb_slab (bo_metric k)) <> v_addr (pb_chars p)).
    { intros i k Hi x A. eapply step_frame; [exact I1|exact H|exact A|].
      intros j p Hj K. eapply (pv_parsers _ I i k j p); [exact Hi|exact Hj|congruence]. }
    constructor; cbn [bp_world bp_metrics].
    + eapply inv_step; eassumption.
    + intros i k Hi. destruct (pv_metric _ I _ _ Hi) as (m & (lc & A & A') & R). cbn [bp_world] in A. exists m. split; [|exact R].
      exists lc. split; [|exact A']. eapply Fr; eassumption.
    + intros i k j p Hi Hj. destruct (pv_metric _ I _ _ Hi) as (m & (lc & A & _) & R). cbn [bp_world] in A. intros K. eapply Fr; [exact Hi|exact A|exact Hj|congruence].
    + intros i j k k' Hij Hi Hj. exact (pv_apart _ I i j k k' Hij Hi Hj).
  - unfold metric_new_b in E. pose proof (vec_new_ok _ (bm_chars (bw_mem w)) (slab_of (metric_new a))) as K.
    destruct (vec_new (bm_chars (bw_mem w)) (slab_of (metric_new a))) as [v h]. destruct K as (K1 & K2 & K3).
    injection E as <- <-. apply pinv_snoc; [exact I|constructor|exact K1| | |].
    + exists (fresh (v_tag v) (slab_of (metric_new a))). split; [exact K2|]. split; [apply fresh_base|apply fresh_values].
    + intros j p x _. apply K3.
    + intros j k l _ (lc & J & J'). exists lc. split; [apply K3; exact J|exact J'].
  - destruct (pv_metric _ I _ _ Hi) as (m & A & Er & Hm). cbn [bp_world bo_metric bo_algo bo_options] in *. unfold metric_clone_b in E.
    destruct (slab_clone _ _ _ A) as (h & v' & E1 & N & S1 & S2 & O). rewrite E1 in E. cbn [bind] in E. injection E as <- <-. rewrite Er.
    apply pinv_snoc; try assumption.
    + intros j p x Hj. apply O. exact (pv_parsers _ I _ _ _ _ Hi Hj).
    + intros j k l Hj J. destruct (Nat.eq_dec j i) as [->|Hji].
      * rewrite Hi in Hj. injection Hj as <-. cbn [bo_metric] in *. replace l with (slab_of m); [exact S2|].
        destruct J as (l1 & J1 & _ & <-), A as (l2 & J2 & _ & <-). unfold buf in *. congruence.
      * destruct J as (lc & J & J'). exists lc. split; [|exact J']. apply O; [|exact J]. exact (pv_apart _ I _ _ _ _ Hji Hj Hi).
  - destruct (pv_metric _ I _ _ Hi) as (m & A & _). cbn [bp_world bo_metric] in *. unfold metric_drop_b in E.
    destruct (slab_drop _ _ _ A) as (h & E1 & O). rewrite E1 in E. cbn [bind] in E. injection E as <-.
    eapply pinv_at; [exact I|exact Hi| |discriminate].
    intros b x Hb K. split; [apply O; assumption|discriminate].
  - destruct w as [mem ps ls].
    replace (MkBWorld mem ps ls) with (with_bmem (MkBWorld mem ps ls) (set_chars (bw_mem (MkBWorld mem ps ls)) (bm_chars mem)))
      by (cbn [bw_mem]; rewrite set_chars_same; reflexivity).
    eapply pinv_at; [exact I|exact Hi| |].
    + cbn [bw_mem bo_metric mb_slab]. intros b x0 Hb K. split; [exact K|]. intros k' [= <-]. exact Hb.
    + intros k' [= <-]. destruct (pv_metric _ I _ _ Hi) as (m & A & Er & Hm). cbn [bp_world bw_mem bo_metric bo_algo bo_options mb_slab mb_rest] in *.
      exists (set_option m x). split; [|split].
      * replace (slab_of (set_option m x)) with (slab_of m); [exact A|]. destruct m as [[]|[]], x; reflexivity.
      * rewrite Er, MemoryMetricProofs.set_option_slab. reflexivity.
      * destruct x; cbn [after_setting set_option]; [apply mr_case|apply mr_norm|apply mr_scheme]; exact Hm.
  - destruct (search_sim _ _ _ b I Hi Hb) as (m & Hm & S & _). cbn [bp_world bo_metric bo_algo bo_options] in *.
    destruct (reached_result a o (wanted (bl_extended b) (bl_string b)) cand (MemoryMetricProofs.wanted_reached _ _)) as (d1 & new & _ & _ & R).
    destruct (R m Hm) as [(m' & Hm' & E') _]. destruct (S gr _ _ _ E') as (v' & h & E2 & K & Fr). rewrite E2 in E. injection E as <- <- <-.
    eapply pinv_at; [exact I|exact Hi| |].
    + intros b0 x Hb0 K0. destruct (Fr _ _ Hb0 K0) as [F1 F2]. split; [exact F1|]. intros k' [= <-]. exact F2.
    + intros k' [= <-]. exists m'. auto.
  - destruct (search_sim _ _ _ b I Hi Hb) as (m & Hm & _ & S). cbn [bp_world bo_metric bo_algo bo_options] in *.
    destruct (reached_result a o (wanted (bl_extended b) (bl_string b)) cand (MemoryMetricProofs.wanted_reached _ _)) as (d1 & new & _ & _ & R).
    destruct (R m Hm) as [_ R']. destruct (R' bf) as (m' & Hm' & E'). destruct (S gr _ _ _ _ _ E') as (v' & h & E2 & K & Fr).
    rewrite E2 in E. injection E as <- <- <- <-.
    eapply pinv_at; [exact I|exact Hi| |].
    + intros b0 x Hb0 K0. destruct (Fr _ _ Hb0 K0) as [F1 F2]. split; [exact F1|]. intros k' [= <-]. exact F2.
    + intros k' [= <-]. exists m'. auto.
Qed.

Lemma pinv_reached g : bprogram_reached g -> pinv g.
Proof.
  induction 1 as [|g g' _ IH H]; [|eapply pinv_step; eassumption].
  constructor; cbn [bp_world bp_metrics].
  - apply inv_start.
  - intros [|i] k H; discriminate.
  - intros [|i] k j p H; discriminate.
  - intros [|i] j k k' _ H; discriminate.
Qed.

Lemma wanted_parse b : if bl_extended b then exists ps, parse parser_new (bl_string b) = Ok (wanted (bl_extended b) (bl_string b), ps)
  else wanted (bl_extended b) (bl_string b) = new_not_extended (bl_string b).
Proof.
  destruct (bl_extended b); [|reflexivity]. destruct (parse_correct parser_new (bl_string b)) as (ps & E & _). exists ps. exact E.
Qed.

Lemma c87_search : forall g i k b gr cand buf m,
  bprogram_reached g -> nth_error (bp_metrics g) i = Some (Some k) -> In b (bw_loans (bp_world g)) ->
  metric_reached (bo_algo k) (bo_options k) m ->
  exists q d new m1 m2 mb1 mem1 mb2 mem2,
    (if bl_extended b then exists ps, parse parser_new (bl_string b) = Ok (q, ps) else q = new_not_extended (bl_string b))
    /\ metric_distance m q cand = Ok (d, m1)
    /\ metric_distance_and_ranges m q cand buf = Ok (d, m2, buf ++ new)
    /\ metric_distance_b gr (bw_mem (bp_world g)) (bo_metric k) (bl_query b) cand = Ok (d, mb1, mem1)
    /\ metric_distance_and_ranges_b gr (bw_mem (bp_world g)) (bo_metric k) (bl_query b) cand buf = Ok (d, mb2, mem2, buf ++ new).
Proof.
  intros g i k b gr cand buf m0 Hg Hi Hb H0. apply pinv_reached in Hg.
  destruct (search_sim _ _ _ b Hg Hi Hb) as (m & Hm & S1 & S2).
  destruct (reached_result (bo_algo k) (bo_options k) (wanted (bl_extended b) (bl_string b)) cand (MemoryMetricProofs.wanted_reached _ _)) as (d & new & _ & _ & R).
  destruct (R m Hm) as [(m' & _ & E) R']. destruct (R' buf) as (m'' & _ & E').
  destruct (R m0 H0) as [(m1 & _ & E1) R1]. destruct (R1 buf) as (m2 & _ & E2).
  destruct (S1 gr _ _ _ E) as (a1 & h1 & E3 & _). destruct (S2 gr _ _ _ _ _ E') as (a2 & h2 & E4 & _).
  exists (wanted (bl_extended b) (bl_string b)), d, new. do 6 eexists. split; [apply wanted_parse|].
  split; [exact E1|]. split; [exact E2|]. split; [exact E3|exact E4].
Qed.

Lemma c87_queries : forall g b,
  bprogram_reached g -> In b (bw_loans (bp_world g)) ->
  exists q, read_query_b (bw_mem (bp_world g)) (bl_query b) = Ok (q, bw_mem (bp_world g))
    /\ if bl_extended b then exists ps, parse parser_new (bl_string b) = Ok (q, ps) else q = new_not_extended (bl_string b).
Proof. intros g b Hg Hb. apply queries_read; [apply pv_inv, pinv_reached, Hg|exact Hb]. Qed.

Lemma c87_calls : forall g,
  bprogram_reached g ->
  (forall i k, nth_error (bp_metrics g) i = Some (Some k) ->
       (exists r, metric_clone_b (bw_mem (bp_world g)) (bo_metric k) = Ok r)
       /\ (exists r, metric_drop_b (bw_mem (bp_world g)) (bo_metric k) = Ok r))
  /\ (forall i p, nth_error (bw_parsers (bp_world g)) i = Some (Some p) ->
       (forall g1 g2 g3 s, exists r, parse_b g1 g2 g3 (bw_mem (bp_world g)) p s = Ok r)
       /\ (exists r, parser_clone_b (bw_mem (bp_world g)) p = Ok r)
       /\ (exists r, parser_drop_b (bw_mem (bp_world g)) p = Ok r)
       /\ (forall s, (exists r, parse_not_extended_b (bw_mem (bp_world g)) p s = Ok r)
             <-> exists l, cells_at (bm_chars (bw_mem (bp_world g))) (v_addr (pb_chars p)) = Ok l /\ length s <= length l)
       /\ (exists l, cells_at (bm_chars (bw_mem (bp_world g))) (v_addr (pb_chars p)) = Ok l /\ 64 <= length l)).
Proof.
  intros g Hg. apply pinv_reached in Hg. split.
  - intros i k Hi. destruct (pv_metric _ Hg _ _ Hi) as (m & A & _). unfold metric_clone_b, metric_drop_b.
    destruct (slab_clone _ _ _ A) as (h & v' & -> & _). destruct (slab_drop _ _ _ A) as (h' & -> & _). cbn [bind]. split; eexists; reflexivity.
  - intros i p Hi. exact (calls_return_inv _ _ _ (pv_inv _ Hg) Hi).
Qed.

(** ** Running programs, for examples. A panic of parse_not_extended is caught. *)
Inductive bcommand :=
| BParser
| BParserClone (i : nat)
| BParserDrop (i : nat)
| BParse (i : nat) (g1 g2 g3 : growth) (s : str)
| BParseNotExtended (i : nat) (s : str)
| BRead (n : nat)
| BNew (a : algo)
| BClone (i : nat)
| BDrop (i : nat)
| BSet (i : nat) (x : setting)
| BDistance (i : nat) (g : growth) (n : nat) (cand : str)
| BRanges (i : nat) (g : growth) (n : nat) (cand : str) (buf : list range).

(** The state after the call, and what a search returns *)
Definition brun1 (g : bprogram) (c : bcommand) : option (bprogram * option (option distance * list range)) :=
  let '(MkBProgram (MkBWorld mem ps ls) ms) := g in
  let theps i := match nth_error ps i with Some o => o | None => None end in
  let the i := match nth_error ms i with Some o => o | None => None end in
  match c with
  | BParser => let '(p, mem) := parser_new_b mem in Some (MkBProgram (MkBWorld mem (ps ++ [Some p]) ls) ms, None)
  | BParserClone i =>
      match theps i with
      | Some p => match parser_clone_b mem p with
                  | Ok (p', mem) => Some (MkBProgram (MkBWorld mem (ps ++ [Some p']) ls) ms, None)
                  | _ => None
                  end
      | None => None
      end
  | BParserDrop i =>
      match theps i with
      | Some p => match parser_drop_b mem p with
                  | Ok mem => Some (MkBProgram (MkBWorld mem (upd ps i None) (other_bloans i ls)) ms, None)
                  | _ => None
                  end
      | None => None
      end
  | BParse i g1 g2 g3 s =>
      match theps i with
      | Some p => match parse_b g1 g2 g3 mem p s with
                  | Ok (q, p', mem) => Some (MkBProgram (MkBWorld mem (upd ps i (Some p')) (MkBLoan i q true s :: other_bloans i ls)) ms, None)
                  | _ => None
                  end
      | None => None
      end
  | BParseNotExtended i s =>
      match theps i with
      | Some p => match parse_not_extended_b mem p s with
                  | Ok (q, mem) => Some (MkBProgram (MkBWorld mem ps (MkBLoan i q false s :: other_bloans i ls)) ms, None)
                  | Panic => Some (MkBProgram (MkBWorld (parse_not_extended_caught_b mem p s) ps (other_bloans i ls)) ms, None)
                  | OutOfFuel => None
                  end
      | None => None
      end
  | BRead n =>
      match nth_error ls n with
      | Some b => match read_query_b mem (bl_query b) with
                  | Ok (q, mem) => Some (MkBProgram (MkBWorld mem ps ls) ms, None)
                  | _ => None
                  end
      | None => None
      end
  | BNew a => let '(mb, mem) := metric_new_b mem a in
      Some (MkBProgram (MkBWorld mem ps ls) (ms ++ [Some (MkBOwned a default_options mb)]), None)
  | BClone i =>
      match the i with
      | Some (MkBOwned a o mb) =>
          match metric_clone_b mem mb with
          | Ok (mb', mem) => Some (MkBProgram (MkBWorld mem ps ls) (ms ++ [Some (MkBOwned a o mb')]), None)
          | _ => None
          end
      | None => None
      end
  | BDrop i =>
      match the i with
      | Some (MkBOwned a o mb) =>
          match metric_drop_b mem mb with
          | Ok mem => Some (MkBProgram (MkBWorld mem ps ls) (upd ms i None), None)
          | _ => None
          end
      | None => None
      end
  | BSet i x =>
      match the i with
      | Some (MkBOwned a o mb) =>
          Some (MkBProgram (MkBWorld mem ps ls)
                 (upd ms i (Some (MkBOwned a (after_setting o x) (MkMetricB (mb_slab mb) (set_option (mb_rest mb) x))))), None)
      | None => None
      end
  | BDistance i gr n cand =>
      match the i, nth_error ls n with
      | Some (MkBOwned a o mb), Some b =>
          match metric_distance_b gr mem mb (bl_query b) cand with
          | Ok (d, mb', mem) => Some (MkBProgram (MkBWorld mem ps ls) (upd ms i (Some (MkBOwned a o mb'))), Some (d, []))
          | _ => None
          end
      | _, _ => None
      end
  | BRanges i gr n cand buf =>
      match the i, nth_error ls n with
      | Some (MkBOwned a o mb), Some b =>
          match metric_distance_and_ranges_b gr mem mb (bl_query b) cand buf with
          | Ok (d, mb', mem, buf') => Some (MkBProgram (MkBWorld mem ps ls) (upd ms i (Some (MkBOwned a o mb'))), Some (d, buf'))
          | _ => None
          end
      | _, _ => None
      end
  end.

Fixpoint brun (cs : list bcommand) (g : bprogram) : option (bprogram * list (option distance * list range)) :=
  match cs with
  | [] => Some (g, [])
  | c :: cs' =>
      match brun1 g c with
      | None => None
      | Some (g', r) =>
          match brun cs' g' with
          | None => None
          | Some (g'', rs) => Some (g'', match r with Some x => x :: rs | None => rs end)
          end
      end
  end.

Lemma brun1_step g c g' r : brun1 g c = Some (g', r) -> bpstep g g'.
Proof.
  destruct g as [[mem ps ls] ms]. unfold brun1.
  assert (T : forall A (l : list (option A)) i k, match nth_error l i with Some o => o | None => None end = Some k -> nth_error l i = Some (Some k))
    by (intros A l i k; destruct (nth_error l i); congruence).
  destruct c as [|i|i|i g1 g2 g3 s|i s|n|a|i|i|i x|i gr n cand|i gr n cand buf].
  - destruct (parser_new_b mem) as [p mem'] eqn:E. intros [= <- <-]. apply bps_parser. constructor. exact E.
  - destruct (match nth_error ps i with Some o => o | None => None end) as [p|] eqn:Ei; [|discriminate]. apply T in Ei.
    destruct (parser_clone_b mem p) as [[p' mem']| |] eqn:E; try discriminate. intros [= <- <-]. apply bps_parser. econstructor; eassumption.
  - destruct (match nth_error ps i with Some o => o | None => None end) as [p|] eqn:Ei; [|discriminate]. apply T in Ei.
    destruct (parser_drop_b mem p) as [mem'| |] eqn:E; try discriminate. intros [= <- <-]. apply bps_parser. econstructor; eassumption.
  - destruct (match nth_error ps i with Some o => o | None => None end) as [p|] eqn:Ei; [|discriminate]. apply T in Ei.
    destruct (parse_b g1 g2 g3 mem p s) as [[[q p'] mem']| |] eqn:E; try discriminate. intros [= <- <-]. apply bps_parser. econstructor; eassumption.
  - destruct (match nth_error ps i with Some o => o | None => None end) as [p|] eqn:Ei; [|discriminate]. apply T in Ei.
    destruct (parse_not_extended_b mem p s) as [[q mem']| |] eqn:E; try discriminate; intros [= <- <-]; apply bps_parser; [eapply bs_parse_not_extended|eapply bs_caught]; eassumption.
  - destruct (nth_error ls n) as [b|] eqn:Eb; [|discriminate]. apply nth_error_In in Eb.
    destruct (read_query_b mem (bl_query b)) as [[q mem']| |] eqn:E; try discriminate. intros [= <- <-]. apply bps_parser. econstructor; eassumption.
  - destruct (metric_new_b mem a) as [mb mem'] eqn:E. intros [= <- <-]. apply (bps_new (MkBWorld mem ps ls)). exact E.
  - destruct (match nth_error ms i with Some o => o | None => None end) as [[a o mb]|] eqn:Ei; [|discriminate]. apply T in Ei.
    destruct (metric_clone_b mem mb) as [[mb' mem']| |] eqn:E; try discriminate. intros [= <- <-]. apply (bps_clone (MkBWorld mem ps ls)) with (1 := Ei). exact E.
  - destruct (match nth_error ms i with Some o => o | None => None end) as [[a o mb]|] eqn:Ei; [|discriminate]. apply T in Ei.
    destruct (metric_drop_b mem mb) as [mem'| |] eqn:E; try discriminate. intros [= <- <-]. apply (bps_drop (MkBWorld mem ps ls)) with (1 := Ei). exact E.
  - destruct (match nth_error ms i with Some o => o | None => None end) as [[a o mb]|] eqn:Ei; [|discriminate]. apply T in Ei.
    intros [= <- <-]. apply bps_set. exact Ei.
  - destruct (match nth_error ms i with Some o => o | None => None end) as [[a o mb]|] eqn:Ei; [|discriminate]. apply T in Ei.
    destruct (nth_error ls n) as [b|] eqn:Eb; [|discriminate]. apply nth_error_In in Eb.
    destruct (metric_distance_b gr mem mb (bl_query b) cand) as [[[d mb'] mem']| |] eqn:E; try discriminate.
    intros [= <- <-]. apply (bps_distance (MkBWorld mem ps ls)) with (1 := Ei) (2 := Eb) (3 := E).
  - destruct (match nth_error ms i with Some o => o | None => None end) as [[a o mb]|] eqn:Ei; [|discriminate]. apply T in Ei.
    destruct (nth_error ls n) as [b|] eqn:Eb; [|discriminate]. apply nth_error_In in Eb.
    destruct (metric_distance_and_ranges_b gr mem mb (bl_query b) cand buf) as [[[[d mb'] mem'] buf']| |] eqn:E; try discriminate.
    intros [= <- <-]. apply (bps_distance_and_ranges (MkBWorld mem ps ls)) with (1 := Ei) (2 := Eb) (3 := E).
Qed.

Lemma brun_reached cs : forall g g' rs, bprogram_reached g -> brun cs g = Some (g', rs) -> bprogram_reached g'.
Proof.
  induction cs as [|c cs IH]; cbn [brun]; intros g g' rs H E; [injection E as <- _; exact H|].
  destruct (brun1 g c) as [[g1 r]|] eqn:E1; [|discriminate]. destruct (brun cs g1) as [[g2 rs']|] eqn:E2; [|discriminate].
  injection E as <- _. eapply IH; [|exact E2]. eapply bpr_step; [exact H|]. eapply brun1_step; exact E1.
Qed.

(** What the queries in use read as *)
Definition all_queries (g : bprogram) : list (res query) :=
  map (fun b => let* '(q, _) := read_query_b (bw_mem (bp_world g)) (bl_query b) in Ok q) (bw_loans (bp_world g)).

End Programs.

Definition start_bprogram : bprogram := MkBProgram (MkBWorld (MkBMem (MkHeap [] 0) (MkHeap [] 0) (MkHeap [] 0)) [] []) [].
