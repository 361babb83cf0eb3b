(** Claims about threads which parse and search. *)
From Verif Require MemoryProofs.
From Verif Require MemoryMetricProofs.
From Verif Require Import Prelude Chars Utils Candidate MatchedRanges Query Parser Scoring Slab Fzf FzfV1 FzfV2 Api History
  MemoryMetric Borrows BorrowsMetric BorrowsThreads Workers Spec SpecThreads SpecWorkers PreludeProofs ParserProofs BorrowsProofs BorrowsParser
  BorrowsMetricProofs BorrowsThreadsProofs WorkersProofs ApiProofs Claims1 Claims25.
Local Open Scope nat_scope.

Section Claims.
Context {UC : unicode}.

Lemma workers_inv g jobs ts mem ts' : wprogram_reached g -> hired g jobs ts -> schedule (bw_mem (bp_world g), ts) (mem, ts') ->
  exists V L R, winv (unborrowed jobs (bw_parsers (bp_world g)) (bw_mem (bp_world g))) (bp_metrics g) jobs V L R mem ts'.
Proof.
  intros Hg Sp Sc. apply pinv_wreached in Hg. destruct (winv_start _ _ _ Hg Sp) as (V0 & L0 & R0 & T0).
  destruct Sp as (ND & _). exact (winv_schedule _ _ _ ND _ _ _ (_, _) (_, _) T0 Sc).
Qed.

Lemma c108_workers : forall g jobs ts mem ts',
  wprogram_reached g -> hired g jobs ts -> schedule (bw_mem (bp_world g), ts) (mem, ts') ->
  forall n jb t, nth_error jobs n = Some jb -> nth_error ts' n = Some t -> is_done t = true ->
  exists k r, nth_error (bp_metrics g) (jb_metric jb) = Some (Some k) /\ t = Done (Ok r)
    /\ results (bo_algo k) (bo_options k) None (jb_works jb) (wr_out r)
    /\ bo_algo (wr_metric r) = bo_algo k /\ bo_options (wr_metric r) = options_left (bo_options k) (jb_works jb).
Proof.
  intros g jobs ts mem ts' Hg Sp Sc n jb t Hj Ht Hd. destruct (workers_inv _ _ _ _ _ Hg Sp Sc) as (V & L & R & T).
  destruct t as [r|]; [|discriminate]. destruct (winv_done _ _ _ _ _ _ _ _ _ _ _ T Hj Ht) as (k & x & Hk & -> & _ & G1 & G2 & _ & _ & G).
  exists k, x. auto.
Qed.

(** *** Every schedule can be completed *)
Lemma schedule_trans A (st1 st2 st3 : bmemory * list (prog A)) : schedule st1 st2 -> schedule st2 st3 -> schedule st1 st3.
Proof. intros H1 H2. induction H2 as [st|a b c H2 IH H]; [exact H1|]. eapply schedule_more; [apply IH; exact H1|exact H]. Qed.

Lemma all_ok A (ts : list (prog A)) : (forall t, In t ts -> exists r, t = Done (Ok r)) -> exists rs, ts = map (fun r => Done (Ok r)) rs.
Proof.
  induction ts as [|t ts IH]; intros H; [exists []; reflexivity|]. destruct (H t (or_introl eq_refl)) as (r & ->).
  destruct IH as (rs & ->); [intros t Ht; apply H; right; exact Ht|]. exists (r :: rs). reflexivity.
Qed.

Lemma c108_completes : forall g jobs ts mem ts',
  wprogram_reached g -> hired g jobs ts -> schedule (bw_mem (bp_world g), ts) (mem, ts') ->
  exists mem' rs, schedule (mem, ts') (mem', map (fun r => Done (Ok r)) rs).
Proof.
  intros g jobs ts mem ts' Hg Sp. generalize (c89_ends _ mem ts'). intros Ac. remember (mem, ts') as st eqn:Est.
  revert mem ts' Est. induction Ac as [st _ IH]. intros mem ts' -> Sc.
  destruct (forallb is_done ts') eqn:Ed.
  - destruct (all_ok _ ts') as (rs & ->); [|exists mem, rs; constructor].
    intros t Ht. rewrite forallb_forall in Ed. pose proof (Ed _ Ht) as Hd. apply In_nth_error in Ht as (n & Hn).
    destruct (workers_inv _ _ _ _ _ Hg Sp Sc) as (V & L & R & T).
    destruct (nth_error jobs n) as [jb|] eqn:Hj.
    + destruct (c108_workers _ _ _ _ _ Hg Sp Sc _ _ _ Hj Hn Hd) as (k & r & _ & -> & _). eauto.
    + apply nth_error_None in Hj. rewrite <- (wi_length _ _ _ _ _ _ _ _ T) in Hj. assert (n < length ts') by (apply nth_error_Some; congruence). lia.
  - assert (X : exists i t, nth_error ts' i = Some t /\ is_done t = false).
    { clear -Ed. induction ts' as [|t ts' IH]; cbn [forallb] in Ed; [discriminate|]. destruct (is_done t) eqn:E; cbn [andb] in Ed.
      - destruct (IH Ed) as (i & u & H). exists (S i), u. exact H.
      - exists 0, t. auto. }
    destruct X as (i & t & Hi & Hd). destruct (thread_step mem t) as [mem1 t1] eqn:Et.
    assert (S1 : sched (mem, ts') (mem1, upd ts' i t1)) by (eapply sched_step; eassumption).
    destruct (IH _ S1 mem1 (upd ts' i t1) eq_refl) as (mem' & rs & H); [eapply schedule_more; eassumption|].
    exists mem', rs. eapply schedule_trans; [|exact H]. eapply schedule_more; [constructor|exact S1].
Qed.

Lemma c108_search : forall g i k b gr cand buf m,
  wprogram_reached g -> nth_error (bp_metrics g) i = Some (Some k) -> In b (bw_loans (bp_world g)) ->
  metric_reached (bo_algo k) (bo_options k) m ->
  exists q d new m1 m2 mb1 mem1 mb2 mem2,
    (if bl_extended b then exists ps, parse parser_new (bl_string b) = Ok (q, ps) else q = new_not_extended (bl_string b))
    /\ metric_distance m q cand = Ok (d, m1)
    /\ metric_distance_and_ranges m q cand buf = Ok (d, m2, buf ++ new)
    /\ metric_distance_b gr (bw_mem (bp_world g)) (bo_metric k) (bl_query b) cand = Ok (d, mb1, mem1)
    /\ metric_distance_and_ranges_b gr (bw_mem (bp_world g)) (bo_metric k) (bl_query b) cand buf = Ok (d, mb2, mem2, buf ++ new).
Proof.
  intros g i k b gr cand buf m0 Hg Hi Hb H0. apply pinv_wreached in Hg.
  destruct (search_sim _ _ _ b Hg Hi Hb) as (m & Hm & S1 & S2).
  destruct (reached_result (bo_algo k) (bo_options k) (wanted (bl_extended b) (bl_string b)) cand (MemoryMetricProofs.wanted_reached _ _)) as (d & new & _ & _ & R).
  destruct (R m Hm) as [(m' & _ & E) R']. destruct (R' buf) as (m'' & _ & E').
  destruct (R m0 H0) as [(m1 & _ & E1) R1]. destruct (R1 buf) as (m2 & _ & E2).
  destruct (S1 gr _ _ _ E) as (a1 & h1 & E3 & _). destruct (S2 gr _ _ _ _ _ E') as (a2 & h2 & E4 & _).
  exists (wanted (bl_extended b) (bl_string b)), d, new. do 6 eexists. split; [apply wanted_parse|].
  split; [exact E1|]. split; [exact E2|]. split; [exact E3|exact E4].
Qed.

Lemma c108_parse : forall g j p g1 g2 g3 s,
  wprogram_reached g -> nth_error (bw_parsers (bp_world g)) j = Some (Some p) ->
  (exists q ps qb p' mem, parse parser_new s = Ok (q, ps) /\ parse_b g1 g2 g3 (bw_mem (bp_world g)) p s = Ok (qb, p', mem) /\ read_query_b mem qb = Ok (q, mem))
  /\ (length s <= 64 -> exists qb mem, parse_not_extended_b (bw_mem (bp_world g)) p s = Ok (qb, mem)
        /\ read_query_b mem qb = Ok (new_not_extended s, mem)).
Proof.
  intros g j p g1 g2 g3 s Hg Hp. apply pinv_wreached in Hg. destruct (iv_live _ (pv_inv _ Hg) _ _ Hp) as (l & L & D & Lv & Hl). split.
  - destruct (parse_b_ok g1 g2 g3 _ _ _ _ _ s Lv) as (qb1 & p1 & mem1 & l1 & L1 & D1 & E1 & ((A1 & _) & (A2 & _) & (A3 & _)) & R1 & _).
    destruct (parse_correct parser_new s) as (ps' & E & _).
    exists (query_of (parse_spec s)), ps', qb1, p1, mem1. split; [exact E|]. split; [exact E1|]. eapply reads_read; eassumption.
  - intros Hs. pose proof (parse_not_extended_b_ok _ _ _ _ _ s Lv) as G. destruct (Nat.leb_spec (length s) (length l)) as [_|H]; [|lia].
    destruct G as (qb1 & mem1 & l1 & E1 & ((A1 & _) & (A2 & _) & (A3 & _)) & R1 & _). exists qb1, mem1. split; [exact E1|]. eapply reads_read; eassumption.
Qed.

(** The queries which may be used after the threads have ended read as they should *)
Lemma c108_loans : forall g b, wprogram_reached g -> In b (bw_loans (bp_world g)) -> exists q,
  (if bl_extended b then exists ps, parse parser_new (bl_string b) = Ok (q, ps) else q = new_not_extended (bl_string b))
  /\ read_query_b (bw_mem (bp_world g)) (bl_query b) = Ok (q, bw_mem (bp_world g)).
Proof.
  intros g b Hg Hb. apply pinv_wreached in Hg. destruct (iv_loans _ (pv_inv _ Hg) _ Hb) as (p & l & L & D & _ & ((A1 & _) & (A2 & _) & (A3 & _)) & R).
  exists (wanted (bl_extended b) (bl_string b)). split; [apply wanted_parse|]. eapply reads_read; eassumption.
Qed.

Lemma without_workers g : bprogram_reached g -> wprogram_reached g.
Proof. induction 1 as [|g g' _ IH H]; [constructor|]. eapply wpr_call; eassumption. Qed.

(** ** Threads which can be computed, for the examples. A query of the program is given by its number among those whose parsers are not borrowed. *)
Inductive pwork :=
| PParse (g : growth) (extended : bool) (s : str)
| PSearch (g : growth) (query : option nat) (cand : str) (ranges : option (list range))
| PSet (x : setting)
| PNewMetric
| PNewParser.

Definition the_work (ls : list bloan) (w : pwork) : option work :=
  match w with
  | PParse g extended s => Some (WParse g g g extended s)
  | PSearch g None cand rs => Some (WSearch g None cand rs)
  | PSet x => Some (WSet x)
  | PNewMetric => Some WNewMetric
  | PNewParser => Some WNewParser
  | PSearch g (Some n) cand rs => option_map (fun b => WSearch g (Some b) cand rs) (nth_error ls n)
  end.

Fixpoint fits (parsed : bool) (ws : list pwork) : bool :=
  match ws with
  | [] => true
  | PParse _ extended s :: ws' => (extended || (length s <=? 64)) && fits true ws'
  | PSearch _ (Some _) _ _ :: ws' => fits parsed ws'
  | PSearch _ None _ _ :: ws' => parsed && fits parsed ws'
  | PSet _ :: ws' => fits parsed ws'
  | PNewMetric :: ws' => fits parsed ws'
  | PNewParser :: ws' => fits false ws'
  end.

Lemma fits_allowed ls pws : forall parsed ws, fits parsed pws = true -> Forall2 (fun x y => the_work ls x = Some y) pws ws -> allowed ls parsed ws.
Proof.
  induction pws as [|[g extended s|g [n|] cand rs|y| |] pws IH]; intros parsed ws Hf F; inversion F as [|? ? l l' H F']; subst; cbn [fits the_work] in *; cbn [allowed]; auto.
  - injection H as <-. apply andb_prop in Hf as [H1 H2]. cbn [allowed]. split; [|eauto]. intros ->. cbn [orb] in H1. apply Nat.leb_le in H1. exact H1.
  - destruct (nth_error ls n) as [b|] eqn:E; [|discriminate]. injection H as <-. cbn [allowed]. split; [eapply nth_error_In; exact E|eauto].
  - injection H as <-. apply andb_prop in Hf as [H1 H2]. cbn [allowed]. eauto.
  - injection H as <-. cbn [allowed]. eauto.
  - injection H as <-. cbn [allowed]. eauto.
  - injection H as <-. cbn [allowed]. eauto.
Qed.

Definition distinct (l : list nat) : bool := if list_eq_dec Nat.eq_dec (nodup Nat.eq_dec l) l then true else false.

Lemma distinct_nodup l : distinct l = true -> NoDup l.
Proof. unfold distinct. destruct (list_eq_dec Nat.eq_dec (nodup Nat.eq_dec l) l) as [E|]; [|discriminate]. intros _. rewrite <- E. apply NoDup_nodup. Qed.

Definition the_worker (g : bprogram) (ls : list bloan) (j : nat * nat * list pwork) : option (job * prog wresult) :=
  let '(i, j, pws) := j in
  match nth_error (bp_metrics g) i, nth_error (bw_parsers (bp_world g)) j, all_some (map (the_work ls) pws) with
  | Some (Some k), Some (Some p), Some ws => if fits false pws then Some (MkJob i j ws, worker_p j k p None ws) else None
  | _, _, _ => None
  end.

Definition hire (g : bprogram) (js : list (nat * nat * list pwork)) : option (list job * list (prog wresult)) :=
  let ls := free_loans (map (fun '(i, j, _) => MkJob i j []) js) (bw_loans (bp_world g)) in
  if distinct (map (fun j => fst (fst j)) js) && distinct (map (fun j => snd (fst j)) js)
  then option_map (@List.split _ _) (all_some (map (the_worker g ls) js)) else None.

Lemma hire_hired g js jobs ts : hire g js = Some (jobs, ts) -> hired g jobs ts.
Proof.
  unfold hire. set (ls := free_loans (map (fun '(i, j, _) => MkJob i j []) js) (bw_loans (bp_world g))).
  destruct (distinct (map (fun j => fst (fst j)) js)) eqn:D1; [|discriminate]. destruct (distinct (map (fun j => snd (fst j)) js)) eqn:D2; [|discriminate].
  apply distinct_nodup in D1, D2. cbn [andb]. destruct (all_some (map (the_worker g ls) js)) as [l|] eqn:E; [|discriminate]. apply all_some_forall in E.
  cbn [option_map]. intros [= H].
  assert (G : map jb_metric jobs = map (fun j => fst (fst j)) js /\ map jb_parser jobs = map (fun j => snd (fst j)) js
    /\ Forall2 (fun jb t => exists k p, nth_error (bp_metrics g) (jb_metric jb) = Some (Some k)
       /\ nth_error (bw_parsers (bp_world g)) (jb_parser jb) = Some (Some p)
       /\ allowed ls false (jb_works jb)
       /\ t = worker_p (jb_parser jb) k p None (jb_works jb)) jobs ts).
  { clearbody ls. clear D1 D2. revert jobs ts H. induction E as [|[[i j] pws] [jb t] js l H E IH]; intros jobs ts Hs; cbn [List.split] in Hs.
    - injection Hs as <- <-. split; [reflexivity|]. split; [reflexivity|constructor].
    - destruct (List.split l) as [jl tl]. injection Hs as <- <-. destruct (IH _ _ eq_refl) as (IH1 & IH2 & IH3). unfold the_worker in H.
      destruct (nth_error (bp_metrics g) i) as [[k|]|] eqn:Ek; try discriminate.
      destruct (nth_error (bw_parsers (bp_world g)) j) as [[p|]|] eqn:Ep; try discriminate.
      destruct (all_some (map (the_work ls) pws)) as [ws|] eqn:Ec; [|discriminate]. destruct (fits false pws) eqn:Ef; [|discriminate]. injection H as <- <-.
      apply all_some_forall in Ec. cbn [map jb_metric jb_parser fst snd]. split; [congruence|]. split; [congruence|]. constructor; [|exact IH3].
      exists k, p. cbn [jb_metric jb_parser jb_works]. split; [exact Ek|]. split; [exact Ep|]. split; [|reflexivity]. eapply fits_allowed; eassumption. }
  destruct G as (G1 & G2 & G3). split; [rewrite G1; exact D1|]. split; [rewrite G2; exact D2|].
  assert (El : free_loans jobs (bw_loans (bp_world g)) = ls).
  { unfold ls, free_loans. rewrite G2, map_map.
    replace (map (fun x : nat * nat * list pwork => jb_parser (let '(i, j, _) := x in MkJob i j [])) js) with (map (fun j : nat * nat * list pwork => snd (fst j)) js); [reflexivity|].
    apply map_ext. intros [[i j] ws]. reflexivity. }
  rewrite El. exact G3.
Qed.

(** The results of the threads which are finished *)
Definition woutputs (ts : list (prog wresult)) : list (option (list (option distance * list range))) :=
  map (fun t => match t with Done (Ok r) => Some (wr_out r) | _ => None end) ts.

Fixpoint ended (ts : list (prog wresult)) : option (list wresult) :=
  match ts with
  | [] => Some []
  | Done (Ok r) :: ts' => option_map (cons r) (ended ts')
  | _ :: _ => None
  end.

Lemma ended_map ts : forall rs, ended ts = Some rs -> ts = map (fun r => Done (Ok r)) rs.
Proof.
  induction ts as [|[[r| |]|] ts IH]; intros rs H; cbn [ended] in H; try discriminate; [injection H as <-; reflexivity|].
  destruct (ended ts) as [rs'|]; [|discriminate]. injection H as <-. cbn [map]. f_equal. auto.
Qed.

End Claims.
