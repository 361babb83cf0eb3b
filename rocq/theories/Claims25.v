(** Claims about searches on several threads. *)
From Verif Require MemoryProofs.
From Verif Require MemoryMetricProofs.
From Verif Require Import Prelude Chars Utils Candidate MatchedRanges Query Parser Scoring Slab Fzf FzfV1 FzfV2 Api History
  MemoryMetric Borrows BorrowsMetric BorrowsThreads Spec SpecThreads PreludeProofs ParserProofs BorrowsProofs BorrowsParser
  BorrowsMetricProofs BorrowsThreadsProofs ApiProofs Claims1.
Local Open Scope nat_scope.

Section Claims.
Context {UC : unicode}.

(** ** Schedules *)
Lemma c89_threads : forall g jobs ts mem ts',
  tprogram_reached g -> spawned g jobs ts -> schedule (bw_mem (bp_world g), ts) (mem, ts') ->
  forall n i cs t, nth_error jobs n = Some (i, cs) -> nth_error ts' n = Some t -> is_done t = true ->
  exists k mb out, nth_error (bp_metrics g) i = Some (Some k) /\ t = Done (Ok (mb, out))
    /\ Forall2 (answers (bo_algo k) (bo_options k)) cs out.
Proof.
  intros g jobs ts mem ts' Hg Sp Sc n i cs t Hj Ht Hd. apply pinv_treached in Hg. destruct (tinv_start _ _ _ Hg Sp) as (V0 & L0 & T0).
  destruct Sp as [ND _]. destruct (tinv_schedule _ _ _ _ ND _ _ (_, _) (_, _) T0 Sc) as (V & L & T). cbn [fst snd] in T.
  destruct t as [r|]; [|discriminate]. destruct (tinv_done _ _ _ _ _ _ _ _ _ _ _ _ T Hj Ht) as (k & [mb out] & Hk & -> & _ & G).
  exists k, mb, out. auto.
Qed.

Lemma c89_search : forall g i k b gr cand buf m,
  tprogram_reached g -> nth_error (bp_metrics g) i = Some (Some k) -> In b (bw_loans (bp_world g)) ->
  metric_reached (bo_algo k) (bo_options k) m ->
  exists q d new m1 m2 mb1 mem1 mb2 mem2,
    (if bl_extended b then exists ps, parse parser_new (bl_string b) = Ok (q, ps) else q = new_not_extended (bl_string b))
    /\ metric_distance m q cand = Ok (d, m1)
    /\ metric_distance_and_ranges m q cand buf = Ok (d, m2, buf ++ new)
    /\ metric_distance_b gr (bw_mem (bp_world g)) (bo_metric k) (bl_query b) cand = Ok (d, mb1, mem1)
    /\ metric_distance_and_ranges_b gr (bw_mem (bp_world g)) (bo_metric k) (bl_query b) cand buf = Ok (d, mb2, mem2, buf ++ new).
Proof.
  intros g i k b gr cand buf m0 Hg Hi Hb H0. apply pinv_treached in Hg.
  destruct (search_sim _ _ _ b Hg Hi Hb) as (m & Hm & S1 & S2).
  destruct (reached_result (bo_algo k) (bo_options k) (wanted (bl_extended b) (bl_string b)) cand (MemoryMetricProofs.wanted_reached _ _)) as (d & new & _ & _ & R).
  destruct (R m Hm) as [(m' & _ & E) R']. destruct (R' buf) as (m'' & _ & E').
  destruct (R m0 H0) as [(m1 & _ & E1) R1]. destruct (R1 buf) as (m2 & _ & E2).
  destruct (S1 gr _ _ _ E) as (a1 & h1 & E3 & _). destruct (S2 gr _ _ _ _ _ E') as (a2 & h2 & E4 & _).
  exists (wanted (bl_extended b) (bl_string b)), d, new. do 6 eexists. split; [apply wanted_parse|].
  split; [exact E1|]. split; [exact E2|]. split; [exact E3|exact E4].
Qed.

(** *** Schedules end *)
Notation thread := (prog (metric_b * list (option distance * list range))).

(** [t'] is what is left of [t] after a step *)
Definition rest_of {A} (t' t : prog A) : Prop :=
  match t with
  | Done _ => False
  | Step op k => (exists y, t' = k y) \/ (exists r, t' = Done r)
  end.

Lemma rest_acc A (t : prog A) : Acc rest_of t.
Proof.
  induction t as [r|B op k IH]; constructor; intros t' H; cbn [rest_of] in H; [contradiction|].
  destruct H as [(y & ->)|(r & ->)]; [apply IH|]. constructor. intros t' H. contradiction.
Qed.

Definition rest_list {A} (ts' ts : list (prog A)) : Prop := exists i t t', nth_error ts i = Some t /\ rest_of t' t /\ ts' = upd ts i t'.

Lemma rest_list_acc A (ts : list (prog A)) : Acc rest_list ts.
Proof.
  induction ts as [|t ts IH].
  - constructor. intros ts' ([|i] & t & t' & H & _); discriminate.
  - revert t. induction IH as [ts IH1 IH2]. intros t. induction (rest_acc _ t) as [t Ht1 Ht2].
    constructor. intros ts' (i & u & u' & Hi & Hr & ->). destruct i as [|i]; cbn [nth_error upd] in *.
    + injection Hi as <-. apply Ht2. exact Hr.
    + apply IH2. exists i, u, u'. auto.
Qed.

Lemma c89_ends : forall (A : Type) mem (ts : list (prog A)), Acc (fun st' st => sched st st') (mem, ts).
Proof.
  intros A mem ts. revert mem. induction (rest_list_acc _ ts) as [ts H1 H2]. intros mem. constructor. intros st' H.
  inversion H as [m l i t mem' t' Hi Hd E]; subst. apply H2. exists i, t, t'. split; [exact Hi|]. split; [|reflexivity].
  destruct t as [r|B op k]; [discriminate|]. cbn [rest_of thread_step] in *.
  destruct (op mem) as [[y m]| |]; injection E as <- <-; eauto.
Qed.

(** ** What a search has access to *)
Lemma frozen_rd t s : rd t s -> rd t (frozen s).
Proof.
  induction s as [|[u|u] s IH]; cbn [rd frozen filter]; try contradiction. intros [->|H]; [left; reflexivity|right; apply IH; exact H].
Qed.

Lemma frozen_chg A (l : cells A) : chg ext l (map (fun c => (fst c, frozen (snd c))) l).
Proof. induction l as [|c l IH]; cbn [map]; constructor; [|exact IH]. cbn [fst snd]. split; [reflexivity|]. intros t. apply frozen_rd. Qed.

Lemma frozen_buf A (h h' : bheap A) a l : nth_error (hp h') a = frozen_buffer (nth_error (hp h) a) -> buf h a l ->
  buf h' a (map (fun c => (fst c, frozen (snd c))) l).
Proof. unfold buf. intros -> ->. reflexivity. Qed.

Lemma lent_sim g i k b p mem' : tprogram_reached g -> nth_error (bp_metrics g) i = Some (Some k) -> In b (bw_loans (bp_world g)) ->
  nth_error (bw_parsers (bp_world g)) (bl_parser b) = Some (Some p) -> lent (bw_mem (bp_world g)) p (v_addr (mb_slab (bo_metric k))) mem' ->
  exists m, bo_metric k = MkMetricB (mb_slab (bo_metric k)) (with_slab m []) /\ metric_reached (bo_algo k) (bo_options k) m
    /\ slab_at (bm_chars (bw_mem (bp_world g))) (mb_slab (bo_metric k)) (slab_of m)
    /\ slab_at (bm_chars mem') (mb_slab (bo_metric k)) (slab_of m)
    /\ forall h a', others (bm_chars mem') h (v_addr (mb_slab (bo_metric k))) a' -> qsim (set_chars mem' h) (bl_query b) (wanted (bl_extended b) (bl_string b)).
Proof.
  intros Hg Hi Hb Hp [L1 L2 L3 L4]. apply pinv_treached in Hg. pose proof (pv_parsers _ Hg _ _ _ _ Hi Hp) as Hne.
  destruct (pv_metric _ Hg _ _ Hi) as (m & A & Er & Hm). exists m. split; [rewrite <- Er; destruct (bo_metric k); reflexivity|]. split; [exact Hm|].
  split; [exact A|]. destruct A as (lc & B & F & E). split.
  { exists lc. split; [|auto]. unfold buf in *. rewrite L1. exact B. }
  destruct (iv_loans _ (pv_inv _ Hg) _ Hb) as (p' & l & L & D & Hp' & ((K1 & _) & (K2 & _) & (K3 & _)) & R).
  rewrite Hp in Hp'. injection Hp' as <-. unfold reads_of in R. intros h a' O.
  eapply reads_qsim; [| | |eapply reads_chg; [apply frozen_chg|apply frozen_chg|apply frozen_chg|exact R]].
  - cbn [set_chars bm_chars]. apply O; [exact Hne|]. eapply frozen_buf; eassumption.
  - cbn [set_chars bm_patterns]. eapply frozen_buf; eassumption.
  - cbn [set_chars bm_conditions]. eapply frozen_buf; eassumption.
Qed.

Lemma nth_with_index A B (f : nat -> A -> B) l : forall i n, nth_error (with_index f i l) n = option_map (f (i + n)) (nth_error l n).
Proof.
  induction l as [|x l IH]; intros i [|n]; cbn [with_index nth_error option_map]; auto.
  - rewrite Nat.add_0_r. reflexivity.
  - rewrite IH. replace (i + 1 + n) with (i + S n) by lia. reflexivity.
Qed.

Lemma c90_lent : forall g i k j p,
  tprogram_reached g -> nth_error (bp_metrics g) i = Some (Some k) -> nth_error (bw_parsers (bp_world g)) j = Some (Some p) ->
  lent (bw_mem (bp_world g)) p (v_addr (mb_slab (bo_metric k))) (only_these (bw_mem (bp_world g)) p (v_addr (mb_slab (bo_metric k)))).
Proof.
  intros g i k j p Hg Hi Hp. apply pinv_treached in Hg. pose proof (pv_parsers _ Hg _ _ _ _ Hi Hp) as Hne.
  constructor; cbn [only_these bm_chars bm_patterns bm_conditions hp]; rewrite nth_with_index; cbn [Nat.add]; unfold frozen_at; rewrite ?Nat.eqb_refl; try reflexivity.
  - destruct (nth_error (hp (bm_chars (bw_mem (bp_world g)))) (v_addr (mb_slab (bo_metric k)))); reflexivity.
  - destruct (Nat.eqb_spec (v_addr (pb_chars p)) (v_addr (mb_slab (bo_metric k)))); [contradiction|reflexivity].
Qed.

Lemma others_refl h a : others h h a a.
Proof. intros b x Hb K. auto. Qed.

Lemma c90_search : forall g i k b p mem' gr cand buf,
  tprogram_reached g -> nth_error (bp_metrics g) i = Some (Some k) -> In b (bw_loans (bp_world g)) ->
  nth_error (bw_parsers (bp_world g)) (bl_parser b) = Some (Some p) ->
  lent (bw_mem (bp_world g)) p (v_addr (mb_slab (bo_metric k))) mem' ->
  (exists d mb1 mem1 mb2 mem2,
     metric_distance_b gr (bw_mem (bp_world g)) (bo_metric k) (bl_query b) cand = Ok (d, mb1, mem1)
     /\ metric_distance_b gr mem' (bo_metric k) (bl_query b) cand = Ok (d, mb2, mem2)
     /\ bm_patterns mem2 = bm_patterns mem' /\ bm_conditions mem2 = bm_conditions mem'
     /\ forall a l, a <> v_addr (mb_slab (bo_metric k)) ->
          nth_error (hp (bm_chars mem')) a = Some (Some l) -> nth_error (hp (bm_chars mem2)) a = Some (Some l))
  /\ (exists d new mb1 mem1 mb2 mem2,
     metric_distance_and_ranges_b gr (bw_mem (bp_world g)) (bo_metric k) (bl_query b) cand buf = Ok (d, mb1, mem1, buf ++ new)
     /\ metric_distance_and_ranges_b gr mem' (bo_metric k) (bl_query b) cand buf = Ok (d, mb2, mem2, buf ++ new)
     /\ bm_patterns mem2 = bm_patterns mem' /\ bm_conditions mem2 = bm_conditions mem'
     /\ forall a l, a <> v_addr (mb_slab (bo_metric k)) ->
          nth_error (hp (bm_chars mem')) a = Some (Some l) -> nth_error (hp (bm_chars mem2)) a = Some (Some l)).
Proof.
  intros g i k b p mem' gr cand buf Hg Hi Hb Hp Hl. destruct (lent_sim _ _ _ _ _ _ Hg Hi Hb Hp Hl) as (m & Ek & Hm & A & A' & Q').
  pose proof (Q' _ _ (others_refl (bm_chars mem') _)) as Q0. rewrite set_chars_same in Q0. clear Hl.
  pose proof (pinv_treached _ Hg) as Hg'. destruct (search_sim _ _ _ b Hg' Hi Hb) as (m0 & Hm0 & S1 & S2).
  destruct (reached_result (bo_algo k) (bo_options k) (wanted (bl_extended b) (bl_string b)) cand (MemoryMetricProofs.wanted_reached _ _)) as (d & new & _ & _ & R).
  destruct (R m Hm) as [(m1 & _ & E1) R1]. destruct (R1 buf) as (m2 & _ & E2).
  destruct (R m0 Hm0) as [(m3 & _ & E3) R3]. destruct (R3 buf) as (m4 & _ & E4).
  set (v := mb_slab (bo_metric k)) in *. split.
  - destruct (S1 gr _ _ _ E3) as (a1 & h1 & F1 & _). destruct (metric_distance_b_eq gr _ _ _ _ _ cand d m1 A' Q0 Q' E1) as (v' & h & F2 & _ & O).
    rewrite <- Ek in F2. do 5 eexists. split; [exact F1|]. split; [exact F2|]. cbn [set_chars bm_patterns bm_conditions bm_chars].
    split; [reflexivity|]. split; [reflexivity|]. intros a l Ha K. apply (O a l Ha K).
  - destruct (S2 gr _ _ _ _ _ E4) as (a1 & h1 & F1 & _). destruct (metric_distance_and_ranges_b_eq gr _ _ _ _ _ cand buf d m2 _ A' Q0 Q' E2) as (v' & h & F2 & _ & O).
    rewrite <- Ek in F2. do 6 eexists. split; [exact F1|]. split; [exact F2|]. cbn [set_chars bm_patterns bm_conditions bm_chars].
    split; [reflexivity|]. split; [reflexivity|]. intros a l Ha K. apply (O a l Ha K).
Qed.

Lemma c90_parse : forall g i p mem' g1 g2 g3 s,
  tprogram_reached g -> nth_error (bw_parsers (bp_world g)) i = Some (Some p) -> owned (bw_mem (bp_world g)) p mem' ->
  exists q ps qb1 p1 mem1 qb2 p2 mem2,
    parse parser_new s = Ok (q, ps)
    /\ parse_b g1 g2 g3 (bw_mem (bp_world g)) p s = Ok (qb1, p1, mem1) /\ read_query_b mem1 qb1 = Ok (q, mem1)
    /\ parse_b g1 g2 g3 mem' p s = Ok (qb2, p2, mem2) /\ read_query_b mem2 qb2 = Ok (q, mem2).
Proof.
  intros g i p mem' g1 g2 g3 s Hg Hp [O1 O2 O3]. apply pinv_treached in Hg.
  destruct (iv_live _ (pv_inv _ Hg) _ _ Hp) as (l & L & D & Lv & _).
  assert (Lv' : live mem' p l L D).
  { destruct Lv as ((K1 & F1) & (K2 & F2) & (K3 & F3)). unfold live, buf in *. rewrite O1, O2, O3. auto. }
  destruct (parse_b_ok g1 g2 g3 _ _ _ _ _ s Lv) as (qb1 & p1 & mem1 & l1 & L1 & D1 & E1 & ((A1 & _) & (A2 & _) & (A3 & _)) & R1 & _).
  destruct (parse_b_ok g1 g2 g3 _ _ _ _ _ s Lv') as (qb2 & p2 & mem2 & l2 & L2 & D2 & E2 & ((B1 & _) & (B2 & _) & (B3 & _)) & R2 & _).
  destruct (parse_correct parser_new s) as (ps' & E & _).
  exists (query_of (parse_spec s)), ps', qb1, p1, mem1, qb2, p2, mem2. split; [exact E|]. split; [exact E1|]. split; [eapply reads_read; eassumption|].
  split; [exact E2|eapply reads_read; eassumption].
Qed.

Lemma c90_parse_not_extended : forall g i p mem' s,
  tprogram_reached g -> nth_error (bw_parsers (bp_world g)) i = Some (Some p) -> owned (bw_mem (bp_world g)) p mem' ->
  (parse_not_extended_b (bw_mem (bp_world g)) p s = Panic /\ parse_not_extended_b mem' p s = Panic)
  \/ exists qb1 mem1 qb2 mem2,
    parse_not_extended_b (bw_mem (bp_world g)) p s = Ok (qb1, mem1) /\ read_query_b mem1 qb1 = Ok (new_not_extended s, mem1)
    /\ parse_not_extended_b mem' p s = Ok (qb2, mem2) /\ read_query_b mem2 qb2 = Ok (new_not_extended s, mem2).
Proof.
  intros g i p mem' s Hg Hp [O1 O2 O3]. apply pinv_treached in Hg.
  destruct (iv_live _ (pv_inv _ Hg) _ _ Hp) as (l & L & D & Lv & _).
  assert (Lv' : live mem' p l L D).
  { destruct Lv as ((K1 & F1) & (K2 & F2) & (K3 & F3)). unfold live, buf in *. rewrite O1, O2, O3. auto. }
  pose proof (parse_not_extended_b_ok _ _ _ _ _ s Lv) as G. pose proof (parse_not_extended_b_ok _ _ _ _ _ s Lv') as G'.
  destruct (length s <=? length l); [right|left; auto].
  destruct G as (qb1 & mem1 & l1 & E1 & ((A1 & _) & (A2 & _) & (A3 & _)) & R1 & _).
  destruct G' as (qb2 & mem2 & l2 & E2 & ((B1 & _) & (B2 & _) & (B3 & _)) & R2 & _).
  exists qb1, mem1, qb2, mem2. split; [exact E1|]. split; [eapply reads_read; eassumption|]. split; [exact E2|eapply reads_read; eassumption].
Qed.

Lemma without_threads g : bprogram_reached g -> tprogram_reached g.
Proof. induction 1 as [|g g' _ IH H]; [constructor|]. eapply tpr_call; eassumption. Qed.

(** ** Schedules which can be computed, for the examples *)
Fixpoint steps {A} (is : list nat) (st : bmemory * list (prog A)) : bmemory * list (prog A) :=
  match is with
  | [] => st
  | i :: is =>
      let '(mem, ts) := st in
      match nth_error ts i with
      | Some t =>
          if is_done t then steps is st
          else let '(mem, t) := thread_step mem t in steps is (mem, upd ts i t)
      | None => steps is st
      end
  end.

Lemma steps_schedule A is : forall st0 st : bmemory * list (prog A), schedule st0 st -> schedule st0 (steps is st).
Proof.
  induction is as [|i is IH]; intros st0 [mem ts] H; cbn [steps]; [exact H|].
  destruct (nth_error ts i) as [t|] eqn:E; [|apply IH; exact H]. destruct (is_done t) eqn:Ed; [apply IH; exact H|].
  destruct (thread_step mem t) as [mem' t'] eqn:Et. apply IH. eapply schedule_more; [exact H|]. eapply sched_step; eassumption.
Qed.

(** Threads of a program: for each the metric and the searches, with the number of the query among those of the program *)
Fixpoint all_some {A} (l : list (option A)) : option (list A) :=
  match l with
  | [] => Some []
  | None :: _ => None
  | Some x :: l => option_map (cons x) (all_some l)
  end.

Definition the_call (g : bprogram) (c : growth * nat * str * option (list range)) : option tcall :=
  let '(gr, n, cand, rs) := c in option_map (fun b => MkCall gr b cand rs) (nth_error (bw_loans (bp_world g)) n).

Definition the_thread (g : bprogram) (j : nat * list (growth * nat * str * option (list range))) : option ((nat * list tcall) * thread) :=
  match nth_error (bp_metrics g) (fst j), all_some (map (the_call g) (snd j)) with
  | Some (Some k), Some cs => Some ((fst j, cs), thread_p (bo_metric k) cs)
  | _, _ => None
  end.

Definition spawn (g : bprogram) (js : list (nat * list (growth * nat * str * option (list range)))) : option (list (nat * list tcall) * list thread) :=
  if list_eq_dec Nat.eq_dec (nodup Nat.eq_dec (map fst js)) (map fst js) then option_map (@List.split _ _) (all_some (map (the_thread g) js)) else None.

Lemma all_some_forall A B (f : A -> option B) l : forall r, all_some (map f l) = Some r -> Forall2 (fun x y => f x = Some y) l r.
Proof.
  induction l as [|x l IH]; intros r H; cbn [map all_some] in H; [injection H as <-; constructor|].
  destruct (f x) as [y|] eqn:E; [|discriminate]. destruct (all_some (map f l)) as [r1|]; [|discriminate]. injection H as <-. constructor; auto.
Qed.

Lemma spawn_spawned g js jobs ts : spawn g js = Some (jobs, ts) -> spawned g jobs ts.
Proof.
  unfold spawn. destruct (list_eq_dec Nat.eq_dec (nodup Nat.eq_dec (map fst js)) (map fst js)) as [E|]; [|discriminate].
  pose proof (NoDup_nodup Nat.eq_dec (map fst js)) as ND. rewrite E in ND. clear E.
  destruct (all_some (map (the_thread g) js)) as [l|] eqn:E; [|discriminate]. apply all_some_forall in E. cbn [option_map]. intros [= H].
  assert (G : map fst jobs = map fst js /\ Forall2 (fun job t => exists k, nth_error (bp_metrics g) (fst job) = Some (Some k)
       /\ (forall c, In c (snd job) -> In (tc_loan c) (bw_loans (bp_world g))) /\ t = thread_p (bo_metric k) (snd job)) jobs ts).
  { clear ND. revert jobs ts H. induction E as [|j [job t] js l H E IH]; intros jobs ts Hs; cbn [List.split] in Hs.
    - injection Hs as <- <-. split; [reflexivity|constructor].
    - destruct (List.split l) as [jl tl]. injection Hs as <- <-. destruct (IH _ _ eq_refl) as [IH1 IH2]. unfold the_thread in H.
      destruct (nth_error (bp_metrics g) (fst j)) as [[k|]|] eqn:Ek; try discriminate.
      destruct (all_some (map (the_call g) (snd j))) as [cs|] eqn:Ec; [|discriminate]. injection H as <- <-. apply all_some_forall in Ec.
      split; [cbn [map fst]; congruence|]. constructor; [|exact IH2]. exists k. cbn [fst snd]. split; [exact Ek|]. split; [|reflexivity].
      intros c Hc. clear -Ec Hc. induction Ec as [|[[[gr n] cand] rs] y l l' H F IH]; [contradiction|]. destruct Hc as [<-|Hc]; [|auto].
      unfold the_call in H. destruct (nth_error (bw_loans (bp_world g)) n) as [b|] eqn:Eb; [|discriminate]. injection H as <-. apply nth_error_In in Eb. exact Eb. }
  destruct G as [G1 G2]. split; [rewrite G1; exact ND|exact G2].
Qed.

(** The results of the threads which are finished *)
Definition outputs (ts : list thread) : list (option (list (option distance * list range))) :=
  map (fun t => match t with Done (Ok (_, out)) => Some out | _ => None end) ts.

End Claims.
