(** Claims about memory which is allocated and freed. *)
From Verif Require Import Prelude Chars Utils Candidate MatchedRanges Query Parser Scoring Slab Fzf FzfV1 FzfV2 Api History
  MemoryMetric Borrows BorrowsMetric BorrowsThreads Workers SpecAlloc PreludeProofs BorrowsProofs BorrowsParser BorrowsMetricProofs BorrowsThreadsProofs
  WorkersProofs AllocProofs.
Local Open Scope nat_scope.

Lemma existing_upd_some A (l : list (option A)) i x y : nth_error l i = Some (Some x) -> existing (upd l i (Some y)) = existing l.
Proof. intros H. apply (existing_upd _ _ _ _ (Some y) H). Qed.

Lemma existing_upd_none A (l : list (option A)) i x : nth_error l i = Some (Some x) -> existing (upd l i None) + 1 = existing l.
Proof. intros H. destruct (existing_upd _ _ _ _ None H). lia. Qed.

Lemma existing_snoc A (l : list (option A)) x : existing (l ++ [Some x]) = existing l + 1.
Proof. rewrite existing_app. reflexivity. Qed.

(** The addresses of those which exist *)
Definition addresses {A} (f : A -> nat) (l : list (option A)) : list nat := flat_map (fun o => match o with Some x => [f x] | None => [] end) l.

Lemma addresses_length A (f : A -> nat) l : length (addresses f l) = existing l.
Proof. induction l as [|[x|] l IH]; cbn [addresses flat_map app length existing]; [reflexivity| |exact IH]. fold (addresses f l). lia. Qed.

Lemma addresses_in A (f : A -> nat) l a : In a (addresses f l) <-> exists i x, nth_error l i = Some (Some x) /\ f x = a.
Proof.
  unfold addresses. rewrite in_flat_map. split.
  - intros ([x|] & H1 & H2); [|contradiction]. destruct H2 as [H2|[]]. apply In_nth_error in H1 as (i & Hi). eauto.
  - intros (i & x & Hi & E). exists (Some x). split; [eapply nth_error_In; exact Hi|left; exact E].
Qed.

Lemma addresses_nodup A (f : A -> nat) l : (forall i j x y, i <> j -> nth_error l i = Some (Some x) -> nth_error l j = Some (Some y) -> f x <> f y) ->
  NoDup (addresses f l).
Proof.
  induction l as [|o l IH]; intros H; [constructor|].
  assert (G : NoDup (addresses f l)) by (apply IH; intros i j x y Hij Hi Hj; apply (H (S i) (S j)); auto).
  destruct o as [x|]; [|exact G]. cbn [addresses flat_map app]. constructor; [|exact G].
  fold (addresses f l). intros Hin. apply addresses_in in Hin as (i & y & Hi & E). apply (H 0 (S i) x y); auto.
Qed.

Lemma allocated_addresses A (l : list (option A)) : exists L, length L = existing l /\ forall a, In a L <-> exists x, nth_error l a = Some (Some x).
Proof.
  induction l as [|o l (L & E & H)].
  - exists []. split; [reflexivity|]. intros [|a]; (split; [contradiction|intros (x & X); discriminate]).
  - exists (match o with Some _ => [0] | None => [] end ++ map S L). split.
    + rewrite app_length, map_length, E. destruct o; reflexivity.
    + intros a. rewrite in_app_iff, in_map_iff. destruct a as [|a]; cbn [nth_error].
      * destruct o as [x|]; cbn [In]; (split; [|intros (y & X)]); eauto; try congruence. intros [[]|(? & ? & _)]; discriminate.
      * rewrite <- H. split.
        -- intros [K|(b & E' & K)]; [destruct o as [x|]; cbn [In] in K; [destruct K as [K|[]]; discriminate|contradiction]|]. congruence.
        -- intros K. right. eauto.
Qed.

Lemma nodup_app A (l m : list A) : NoDup l -> NoDup m -> (forall x, In x l -> In x m -> False) -> NoDup (l ++ m).
Proof.
  intros Hl Hm H. induction Hl as [|x l Hx Hl IH]; [exact Hm|]. cbn [app]. constructor.
  - intros K. apply in_app_or in K as [K|K]; [contradiction|]. eapply H; [left; reflexivity|exact K].
  - apply IH. intros y H1 H2. eapply H; [right; exact H1|exact H2].
Qed.

Lemma owners_all A (h : bheap A) l : NoDup l -> (forall a, In a l -> is_allocated h a) -> length l = buffers h -> forall a, is_allocated h a -> In a l.
Proof.
  intros ND Ha El a (x & Hx). destruct (allocated_addresses _ (hp h)) as (L & E & HL).
  apply (NoDup_length_incl ND (l' := L)).
  - unfold buffers in El. lia.
  - intros b Hb. apply HL, Ha, Hb.
  - apply HL. eauto.
Qed.

Section Claims.
Context {UC : unicode}.

(** *** The searches which are not interleaved *)
Lemma kept_run A (p : prog A) : kept p -> forall mem x mem', run_alone p mem = Ok (x, mem') -> allocated mem' = allocated mem.
Proof.
  induction 1 as [r|B op k Ho _ IH]; intros mem x mem' H; cbn [run_alone] in H; binds.
  - reflexivity.
  - apply IH in H. apply Ho in E. congruence.
Qed.

Lemma distance_b_kept g R mem mb q cand bf d mb' mem' bf' : distance_b g R mem mb q cand bf = Ok (d, mb', mem', bf') -> allocated mem' = allocated mem.
Proof.
  intros H. eapply (kept_run _ _ (kept_distance g R mb q cand bf)). rewrite run_distance_p, H. reflexivity.
Qed.

(** *** Programs *)
Definition counts (ps : list (option parser_b)) (ms : list (option bowned)) : nat * nat * nat := (existing ps + existing ms, existing ps, existing ps).

Lemma bstep_counts w w' ms : allocated (bw_mem w) = counts (bw_parsers w) ms -> bstep w w' -> allocated (bw_mem w') = counts (bw_parsers w') ms.
Proof.
  intros H Hs. destruct Hs as [mem ps ls p mem' E|mem ps ls i p p' mem' Hi E|mem ps ls i p mem' Hi E|mem ps ls i p g1 g2 g3 s q p' mem' Hi E|mem ps ls i p s q mem' Hi E|mem ps ls i p s Hi E|mem ps ls b q mem' Hb E];
    cbn [bw_mem bw_parsers] in *.
  - apply parser_new_more in E. rewrite E, H. unfold counts, plus. cbn [fst snd]. rewrite existing_snoc. apply f_equal2; [apply f_equal2|]; lia.
  - apply parser_clone_more in E. rewrite E, H. unfold counts, plus. cbn [fst snd]. rewrite existing_snoc. apply f_equal2; [apply f_equal2|]; lia.
  - apply parser_drop_less in E. apply (plus_inj _ _ (1, 1, 1)). rewrite E, H. unfold counts, plus. cbn [fst snd].
    pose proof (existing_upd_none _ _ _ _ Hi). apply f_equal2; [apply f_equal2|]; lia.
  - apply parse_kept in E. rewrite E, H. unfold counts. rewrite (existing_upd_some _ _ _ _ _ Hi). reflexivity.
  - apply parse_not_extended_kept in E. congruence.
  - rewrite caught_kept. exact H.
  - apply read_query_kept in E. congruence.
Qed.

Lemma bpstep_counts g g' : allocated (bw_mem (bp_world g)) = counts (bw_parsers (bp_world g)) (bp_metrics g) -> bpstep g g' ->
  allocated (bw_mem (bp_world g')) = counts (bw_parsers (bp_world g')) (bp_metrics g').
Proof.
  intros H Hs. destruct Hs as [w w' ms Hs|w ms a mb mem E|w ms i a o mb mb' mem Hi E|w ms i a o mb mem Hi E|w ms i a o mb x Hi
    |w ms i a o mb gr b cand d mb' mem Hi Hb E|w ms i a o mb gr b cand bf d mb' mem bf' Hi Hb E]; cbn [bp_world bp_metrics with_bmem bw_mem bw_parsers] in *.
  - eapply bstep_counts; eassumption.
  - apply metric_new_more in E. rewrite E, H. unfold counts, plus. cbn [fst snd]. rewrite existing_snoc. apply f_equal2; [apply f_equal2|]; lia.
  - apply metric_clone_more in E. rewrite E, H. unfold counts, plus. cbn [fst snd]. rewrite existing_snoc. apply f_equal2; [apply f_equal2|]; lia.
  - apply metric_drop_less in E. apply (plus_inj _ _ (1, 0, 0)). rewrite E, H. unfold counts, plus. cbn [fst snd].
    pose proof (existing_upd_none _ _ _ _ Hi). apply f_equal2; [apply f_equal2|]; lia.
  - rewrite H. unfold counts. rewrite (existing_upd_some _ _ _ _ _ Hi). reflexivity.
  - unfold metric_distance_b in E. binds. apply distance_b_kept in E0. rewrite E0, H. unfold counts. rewrite (existing_upd_some _ _ _ _ _ Hi). reflexivity.
  - apply distance_b_kept in E. rewrite E, H. unfold counts. rewrite (existing_upd_some _ _ _ _ _ Hi). reflexivity.
Qed.

Lemma back_parsers_existing rs : forall jobs ps, (forall jb, In jb jobs -> exists p, nth_error ps (jb_parser jb) = Some (Some p)) ->
  existing (back_parsers ps jobs rs) = existing ps.
Proof.
  induction rs as [|r rs IH]; intros [|jb jobs] ps H; cbn [back_parsers]; try reflexivity. destruct (H jb (or_introl eq_refl)) as (p & Hp). rewrite IH.
  - apply (existing_upd_some _ _ _ _ _ Hp).
  - intros jb' Hin. rewrite nth_error_upd. destruct ((jb_parser jb' =? jb_parser jb) && (jb_parser jb <? length ps)); [eauto|]. apply H. right. exact Hin.
Qed.

Lemma back_metrics_existing rs : forall jobs ms, (forall jb, In jb jobs -> exists k, nth_error ms (jb_metric jb) = Some (Some k)) ->
  existing (back_metrics ms jobs rs) = existing ms.
Proof.
  induction rs as [|r rs IH]; intros [|jb jobs] ms H; cbn [back_metrics]; try reflexivity. destruct (H jb (or_introl eq_refl)) as (p & Hp). rewrite IH.
  - apply (existing_upd_some _ _ _ _ _ Hp).
  - intros jb' Hin. rewrite nth_error_upd. destruct ((jb_metric jb' =? jb_metric jb) && (jb_metric jb <? length ms)); [eauto|]. apply H. right. exact Hin.
Qed.

Lemma hired_kept g jobs ts : hired g jobs ts -> Forall kept ts.
Proof.
  intros (_ & _ & F). induction F as [|jb t js us (k & p & _ & _ & _ & ->) F IH]; constructor; [apply kept_worker|exact IH].
Qed.

Lemma hired_borrows g jobs ts jb : hired g jobs ts -> In jb jobs ->
  (exists k, nth_error (bp_metrics g) (jb_metric jb) = Some (Some k)) /\ (exists p, nth_error (bw_parsers (bp_world g)) (jb_parser jb) = Some (Some p)).
Proof.
  intros (_ & _ & F) Hin. set (ls := free_loans jobs (bw_loans (bp_world g))) in F. clearbody ls. induction F as [|x t js us (k & p & Hk & Hp & _) F IH]; [contradiction|]. destruct Hin as [->|Hin]; [eauto|auto].
Qed.

Lemma c109_counts : forall g, wprogram_reached g ->
  let parsers := existing (bw_parsers (bp_world g)) in
  let metrics := existing (bp_metrics g) in
  allocated (bw_mem (bp_world g)) = (parsers + metrics, parsers, parsers).
Proof.
  intros g Hg. cbv zeta. induction Hg as [|g g' _ IH H|g jobs ts mem rs _ IH Sp Sc].
  - reflexivity.
  - eapply bpstep_counts; eassumption.
  - destruct (kept_schedule _ (_, _) (_, _) (hired_kept _ _ _ Sp) Sc) as [_ E]. cbn [fst] in E. unfold rejoined. cbn [bp_world bw_mem bw_parsers bp_metrics].
    rewrite E, IH. rewrite back_parsers_existing, back_metrics_existing; [reflexivity| |]; intros jb Hin; apply (hired_borrows _ _ _ _ Sp Hin).
Qed.

(** At every moment while threads run *)
Lemma c109_threads : forall g jobs ts mem ts', wprogram_reached g -> hired g jobs ts -> schedule (bw_mem (bp_world g), ts) (mem, ts') ->
  let parsers := existing (bw_parsers (bp_world g)) in
  let metrics := existing (bp_metrics g) in
  allocated mem = (parsers + metrics, parsers, parsers).
Proof.
  intros g jobs ts mem ts' Hg Sp Sc. cbv zeta. destruct (kept_schedule _ (_, _) (_, _) (hired_kept _ _ _ Sp) Sc) as [_ E]. cbn [fst] in E. rewrite E.
  apply c109_counts. exact Hg.
Qed.

Lemma c109_owned : forall g a, wprogram_reached g ->
  let mem := bw_mem (bp_world g) in
  let parser := fun p => exists j, nth_error (bw_parsers (bp_world g)) j = Some (Some p) in
  let metric := fun k => exists i, nth_error (bp_metrics g) i = Some (Some k) in
  (is_allocated (bm_chars mem) a <->
     (exists p, parser p /\ v_addr (pb_chars p) = a) \/ (exists k, metric k /\ v_addr (mb_slab (bo_metric k)) = a))
  /\ (is_allocated (bm_patterns mem) a <-> exists p, parser p /\ v_addr (pb_patterns p) = a)
  /\ (is_allocated (bm_conditions mem) a <-> exists p, parser p /\ v_addr (pb_conditions p) = a).
Proof.
  intros g a Hg. pose proof (c109_counts _ Hg) as C. cbv zeta in *. apply pinv_wreached in Hg. destruct g as [[mem ps ls] ms]. destruct Hg as [I1 I2 I3 I4].
  cbn [bp_world bp_metrics bw_mem bw_parsers] in *. unfold allocated in C. injection C as C1 C2 C3.
  assert (B : forall j p, nth_error ps j = Some (Some p) -> is_allocated (bm_chars mem) (v_addr (pb_chars p))
    /\ is_allocated (bm_patterns mem) (v_addr (pb_patterns p)) /\ is_allocated (bm_conditions mem) (v_addr (pb_conditions p))).
  { intros j p Hj. destruct (iv_live _ I1 _ _ Hj) as (l & L & D & ((J1 & _) & (J2 & _) & (J3 & _)) & _). split; [exists l; exact J1|]. split; [exists L; exact J2|exists D; exact J3]. }
  assert (BM : forall i k, nth_error ms i = Some (Some k) -> is_allocated (bm_chars mem) (v_addr (mb_slab (bo_metric k)))).
  { intros i k Hi. destruct (I2 _ _ Hi) as (m & (lc & J & _) & _). exists lc. exact J. }
  assert (Ap : forall i j p p', i <> j -> nth_error ps i = Some (Some p) -> nth_error ps j = Some (Some p') -> apart p p').
  { intros i j p p' Hij Hi Hj. exact (iv_apart _ I1 _ _ _ _ Hij Hi Hj). }
  split; [|split]; split.
  - intros H. assert (X : In a (addresses (fun p => v_addr (pb_chars p)) ps ++ addresses (fun k => v_addr (mb_slab (bo_metric k))) ms)).
    { apply (owners_all _ (bm_chars mem)); [| | |exact H].
      - apply nodup_app.
        + apply addresses_nodup. intros i j p p' Hij Hi Hj. apply (Ap _ _ _ _ Hij Hi Hj).
        + apply addresses_nodup. intros i j k k' Hij Hi Hj. exact (I4 _ _ _ _ Hij Hi Hj).
        + intros x H1 H2. apply addresses_in in H1 as (j & p & Hj & E1), H2 as (i & k & Hi & E2). apply (I3 _ _ _ _ Hi Hj). congruence.
      - intros b Hb. apply in_app_or in Hb as [Hb|Hb]; apply addresses_in in Hb as (i & x & Hi & <-); [apply (B _ _ Hi)|apply (BM _ _ Hi)].
      - rewrite app_length, !addresses_length. lia. }
    apply in_app_or in X as [X|X]; apply addresses_in in X as (i & x & Hi & E); [left|right]; eauto.
  - intros [(p & (j & Hj) & <-)|(k & (i & Hi) & <-)]; [apply (B _ _ Hj)|apply (BM _ _ Hi)].
  - intros H. assert (X : In a (addresses (fun p => v_addr (pb_patterns p)) ps)).
    { apply (owners_all _ (bm_patterns mem)); [| | |exact H].
      - apply addresses_nodup. intros i j p p' Hij Hi Hj. apply (Ap _ _ _ _ Hij Hi Hj).
      - intros b Hb. apply addresses_in in Hb as (i & x & Hi & <-). apply (B _ _ Hi).
      - rewrite addresses_length. lia. }
    apply addresses_in in X as (i & x & Hi & E). eauto.
  - intros (p & (j & Hj) & <-). apply (B _ _ Hj).
  - intros H. assert (X : In a (addresses (fun p => v_addr (pb_conditions p)) ps)).
    { apply (owners_all _ (bm_conditions mem)); [| | |exact H].
      - apply addresses_nodup. intros i j p p' Hij Hi Hj. apply (Ap _ _ _ _ Hij Hi Hj).
      - intros b Hb. apply addresses_in in Hb as (i & x & Hi & <-). apply (B _ _ Hi).
      - rewrite addresses_length. lia. }
    apply addresses_in in X as (i & x & Hi & E). eauto.
  - intros (p & (j & Hj) & <-). apply (B _ _ Hj).
Qed.

Lemma c109_freed : forall g a, wprogram_reached g -> (forall o, In o (bw_parsers (bp_world g)) -> o = None) -> (forall o, In o (bp_metrics g) -> o = None) ->
  let mem := bw_mem (bp_world g) in
  ~ is_allocated (bm_chars mem) a /\ ~ is_allocated (bm_patterns mem) a /\ ~ is_allocated (bm_conditions mem) a.
Proof.
  intros g a Hg Hp Hm. cbv zeta. destruct (c109_owned g a Hg) as (H1 & H2 & H3). cbv zeta in *.
  assert (P : forall p, ~ exists j, nth_error (bw_parsers (bp_world g)) j = Some (Some p)).
  { intros p (j & Hj). apply nth_error_In, Hp in Hj. discriminate. }
  assert (M : forall k, ~ exists i, nth_error (bp_metrics g) i = Some (Some k)).
  { intros k (j & Hj). apply nth_error_In, Hm in Hj. discriminate. }
  split; [|split]; intros X.
  - apply H1 in X as [(p & K & _)|(k & K & _)]; [exact (P _ K)|exact (M _ K)].
  - apply H2 in X as (p & K & _). exact (P _ K).
  - apply H3 in X as (p & K & _). exact (P _ K).
Qed.

(** For the examples *)
Lemma brun_wreached cs : forall g g' rs, wprogram_reached g -> brun cs g = Some (g', rs) -> wprogram_reached g'.
Proof.
  induction cs as [|c cs IH]; cbn [brun]; intros g g' rs H E; [injection E as <- _; exact H|].
  destruct (brun1 g c) as [[g1 r]|] eqn:E1; [|discriminate]. destruct (brun cs g1) as [[g2 rs']|] eqn:E2; [|discriminate].
  injection E as <- _. eapply IH; [|exact E2]. eapply wpr_call; [exact H|]. eapply brun1_step; exact E1.
Qed.

End Claims.
