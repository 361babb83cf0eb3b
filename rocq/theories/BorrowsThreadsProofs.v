(** Proofs about searches on several threads (BorrowsThreads.v). *)
From Verif Require MemoryProofs.
From Verif Require MemoryMetricProofs.
From Verif Require Import Prelude Chars Utils Candidate MatchedRanges Query Parser Scoring Slab Fzf FzfV1 FzfV2 Api History
  MemoryMetric Borrows BorrowsMetric BorrowsThreads Spec SpecThreads PreludeProofs CharsProofs ParserProofs V1Proofs BorrowsProofs BorrowsParser
  BorrowsMetricProofs ApiProofs Claims1.
Local Open Scope nat_scope.

(** ** Without other threads *)

Lemma run_pbind A B (p : prog A) (f : A -> prog B) : forall mem,
  run_alone (pbind p f) mem = let* '(x, mem) := run_alone p mem in run_alone (f x) mem.
Proof.
  induction p as [r|C op k IH]; intros mem; cbn [pbind run_alone].
  - destruct r; reflexivity.
  - destruct (op mem) as [[y mem']| |]; cbn [bind]; [apply IH|reflexivity|reflexivity].
Qed.

Lemma run_fill_chars_p v text : forall n mem, run_alone (fill_chars_p v n text) mem =
  let* '(h, n) := fill_chars_b (bm_chars mem) v n text in Ok (n, set_chars mem h).
Proof.
  induction text as [|c text IH]; intros n mem; cbn [fill_chars_p fill_chars_b run_alone].
  - cbn [bind]. rewrite set_chars_same. reflexivity.
  - unfold on_chars, no_value. destruct (vec_set (bm_chars mem) v n c); cbn [bind]; [|reflexivity|reflexivity]. rewrite IH. reflexivity.
Qed.

Lemma run_alloc_chars_p g mb text mem : run_alone (alloc_chars_p g mb text) mem =
  let* '(r, mb, mem) := alloc_chars_b g mem mb text in Ok ((r, mb), mem).
Proof.
  unfold alloc_chars_p, alloc_chars_b. cbn [run_alone]. unfold on_chars at 1.
  destruct (vec_grow g (bm_chars mem) (mb_slab mb) (byte_len text) 0%N) as [[v h]| |]; cbn [bind]; [|reflexivity|reflexivity].
  rewrite run_pbind, run_fill_chars_p. cbn [set_chars bm_chars]. destruct (fill_chars_b h v 0 text) as [[h1 n]| |]; cbn [bind]; [|reflexivity|reflexivity].
  cbn [run_alone]. unfold on_chars. cbn [set_chars bm_chars]. destruct (vec_slice h1 v 0 n) as [[r h2]| |]; reflexivity.
Qed.

Section Alone.
Context {UC : unicode}.

Lemma run_store_changes_p v old : forall new i mem, run_alone (store_changes_p v i old new) mem =
  let* h := store_changes (bm_chars mem) v i old new in Ok (tt, set_chars mem h).
Proof.
  assert (N : forall mem, (let* x := Ok tt in Ok (x, mem)) = (let* h := Ok (bm_chars mem) in Ok (tt, set_chars mem h))).
  { intros mem. cbn [bind]. rewrite set_chars_same. reflexivity. }
  induction old as [|x old IH]; intros [|y new] i mem; cbn [store_changes_p store_changes]; try apply N.
  destruct (x =? y)%N; cbn [bind]; [apply IH|]. cbn [run_alone]. unfold on_chars, no_value.
  destruct (vec_set (bm_chars mem) v i y); cbn [bind]; [|reflexivity|reflexivity]. rewrite IH. reflexivity.
Qed.

Lemma run_call_p f mb p c rg mem : run_alone (call_p f mb p c rg) mem =
  let* '(sc, mb, mem, rg) := call_b f mem mb p c rg in Ok ((sc, mb, rg), mem).
Proof.
  unfold call_p, call_b. cbn [run_alone]. destruct (read_pattern_b mem p) as [[p1 mem1]| |]; cbn [bind]; [|reflexivity|reflexivity].
  destruct (read_candidate_b mem1 c) as [[c1 mem2]| |]; cbn [bind]; [|reflexivity|reflexivity]. unfold on_chars.
  destruct (cells_at (bm_chars mem2) (v_addr (mb_slab mb))) as [l| |]; cbn [bind]; [|reflexivity|reflexivity]. rewrite set_chars_same, run_pbind.
  cbn [run_alone]. destruct (f (with_slab (mb_rest mb) (map fst l)) p1 c1 rg) as [[[sc m] rg']| |]; cbn [bind]; [|reflexivity|reflexivity].
  rewrite run_pbind, run_store_changes_p. destruct (store_changes (bm_chars mem2) (mb_slab mb) 0 (map fst l) (slab_of m)); reflexivity.
Qed.

Lemma run_score_condition_p R c ps : forall mb rg mem, run_alone (score_condition_p R mb ps c rg) mem =
  let* '(sc, mb, mem, rg) := score_condition_b R mem mb ps c rg in Ok ((sc, mb, rg), mem).
Proof.
  induction ps as [|p ps IH]; intros mb rg mem; cbn [score_condition_p score_condition_b]; [reflexivity|].
  rewrite run_pbind, run_call_p. destruct (call_b (metric_score R) mem mb p c rg) as [[[[sc mb1] mem1] rg1]| |]; cbn [bind]; [|reflexivity|reflexivity].
  destruct sc; [reflexivity|apply IH].
Qed.

Lemma run_score_conditions_p R c rs : forall mb total rg mem, run_alone (score_conditions_p R mb rs c total rg) mem =
  let* '(sc, mb, mem, rg) := score_conditions_b R mem mb rs c total rg in Ok ((sc, mb, rg), mem).
Proof.
  induction rs as [|r rs IH]; intros mb total rg mem; cbn [score_conditions_p score_conditions_b]; [reflexivity|].
  cbn [run_alone]. destruct (read (bm_patterns mem) r) as [[ps h]| |]; cbn [bind]; [|reflexivity|reflexivity].
  rewrite run_pbind, run_score_condition_p. destruct (score_condition_b R (set_patterns mem h) mb ps c rg) as [[[[sc mb1] mem1] rg1]| |]; cbn [bind]; [|reflexivity|reflexivity].
  destruct sc; [apply IH|reflexivity].
Qed.

(** The two ways in which a search is written agree. *)
Lemma run_distance_p g R mb q cand bf mem : run_alone (distance_p g R mb q cand bf) mem =
  let* '(d, mb, mem, bf) := distance_b g R mem mb q cand bf in Ok ((d, mb, bf), mem).
Proof.
  unfold distance_p, distance_b. destruct (q_is_empty_b q); [reflexivity|]. rewrite run_pbind.
  assert (E : run_alone (if str_is_ascii cand then Done (Ok (AsciiB (encode cand), mb))
       else pbind (alloc_chars_p g mb cand) (fun '(r, mb) => Done (Ok (UnicodeB r, mb)))) mem
     = let* '(c, mb, mem) := (if str_is_ascii cand then Ok (AsciiB (encode cand), mb, mem)
        else let* '(r, mb, mem) := alloc_chars_b g mem mb cand in Ok (UnicodeB r, mb, mem)) in Ok ((c, mb), mem)).
  { destruct (str_is_ascii cand); [reflexivity|]. rewrite run_pbind, run_alloc_chars_p.
    destruct (alloc_chars_b g mem mb cand) as [[[r mb1] mem1]| |]; reflexivity. }
  rewrite E. clear E.
  destruct (if str_is_ascii cand then Ok (AsciiB (encode cand), mb, mem)
        else let* '(r, mb, mem) := alloc_chars_b g mem mb cand in Ok (UnicodeB r, mb, mem)) as [[[c mb1] mem1]| |]; cbn [bind]; [|reflexivity|reflexivity].
  rewrite run_pbind. destruct q as [r|p].
  - cbn [run_alone]. destruct (read (bm_conditions mem1) r) as [[conds h]| |]; cbn [bind]; [|reflexivity|reflexivity].
    rewrite run_score_conditions_p. destruct (score_conditions_b R (set_conditions mem1 h) mb1 conds c 0 (mranges_from bf)) as [[[[sc mb2] mem2] rg2]| |]; reflexivity.
  - rewrite run_call_p. destruct (call_b (metric_fuzzy R) mem1 mb1 p c (mranges_from bf)) as [[[[sc mb2] mem2] rg2]| |]; reflexivity.
Qed.

End Alone.

(** ** One thread among others *)

(** What is known of parsers: [K p l L D], the buffers of [p] hold [l], [L] and [D] *)
Notation holding := (parser_b -> cells char -> cells pattern_b -> cells bref -> Prop).

(** What a thread relies on: the buffers of these parsers hold what they held before, and the slab
    of its metric, at [fst S], has the elements [snd S], which it may write to. *)
Definition view (K : holding) (mem : bmemory) (S : bvec * cells char) : Prop :=
  (forall p l L D, K p l L D -> live mem p l L D)
  /\ (forall p l L D, K p l L D -> v_addr (pb_chars p) <> v_addr (fst S))
  /\ buf (bm_chars mem) (v_addr (fst S)) (snd S) /\ base (v_tag (fst S)) (snd S).

(** Each step succeeds whatever the memory is in which the thread has its view, leaves the buffers of others alone, and ends with [Post] *)
Fixpoint safe {A} (K : holding) (p : prog A) (S : bvec * cells char)
    (Post : A -> bvec * cells char -> Prop) : Prop :=
  match p with
  | Done r => exists x, r = Ok x /\ Post x S
  | Step op k => forall mem, view K mem S -> exists y h S',
      op mem = Ok (y, set_chars mem h) /\ view K (set_chars mem h) S'
      /\ others (bm_chars mem) h (v_addr (fst S)) (v_addr (fst S'))
      /\ safe K (k y) S' Post
  end.

Section Safe.
Context {UC : unicode}.
Variable hs : holding.

Lemma safe_pbind A B (p : prog A) (f : A -> prog B) Post : forall S,
  safe hs p S (fun x S' => safe hs (f x) S' Post) -> safe hs (pbind p f) S Post.
Proof.
  induction p as [r|C op k IH]; intros S; cbn [safe pbind].
  - intros (x & -> & H). exact H.
  - intros H mem V. destruct (H mem V) as (y & h & S' & E & V' & O & G). exists y, h, S'. auto.
Qed.

Lemma safe_imp A (p : prog A) (P Q : A -> bvec * cells char -> Prop) : forall S,
  (forall x S', P x S' -> Q x S') -> safe hs p S P -> safe hs p S Q.
Proof.
  induction p as [r|C op k IH]; intros S I; cbn [safe].
  - intros (x & E & H). exists x. auto.
  - intros H mem V. destruct (H mem V) as (y & h & S' & E & V' & O & G). exists y, h, S'. split; [exact E|]. split; [exact V'|]. split; [exact O|].
    apply (IH y); assumption.
Qed.

Lemma view_others mem S h v' lc' : view hs mem S -> others (bm_chars mem) h (v_addr (fst S)) (v_addr v') ->
  buf h (v_addr v') lc' -> base (v_tag v') lc' -> view hs (set_chars mem h) (v', lc').
Proof.
  intros (I & N & B & F) O B' F'. split; [|split; [|split]]; cbn [fst snd]; auto.
  - intros p l L D H. destruct (I _ _ _ _ H) as ((K1 & K1') & K2). split; [|exact K2]. split; [|exact K1']. apply O; [exact (N _ _ _ _ H)|exact K1].
  - intros p l L D H. destruct (I _ _ _ _ H) as ((K1 & _) & _). apply (O _ _ (N _ _ _ _ H) K1).
Qed.

(** A step which changes nothing *)
Lemma safe_look A B (op : bmemory -> res (B * bmemory)) (k : B -> prog A) S Post :
  (forall mem, view hs mem S -> exists y, op mem = Ok (y, mem) /\ safe hs (k y) S Post) -> safe hs (Step op k) S Post.
Proof.
  intros H mem V. destruct (H mem V) as (y & E & G). exists y, (bm_chars mem), S. rewrite set_chars_same. split; [exact E|]. split; [exact V|].
  split; [|exact G]. intros b x Hb Hx. auto.
Qed.

Lemma upto_others h h' a lc : upto h h' a lc -> others h h' a a.
Proof. intros U b x Hb K. split; [|exact Hb]. eapply upto_other; eassumption. Qed.

Lemma safe_fill_chars_p v text (Post : nat -> bvec * cells char -> Prop) : forall n lc l' n',
  words_alloc (map fst lc) n text = Ok (l', n') ->
  (forall lc', map fst lc' = l' -> Post n' (v, lc')) -> safe hs (fill_chars_p v n text) (v, lc) Post.
Proof.
  induction text as [|c text IH]; intros n lc l' n' E H; cbn [fill_chars_p safe words_alloc] in *.
  - injection E as <- <-. eexists. split; [reflexivity|]. apply H. reflexivity.
  - intros mem V. apply bind_ok in E as (l1 & E1 & E). unfold set_idx in E1.
    destruct (Nat.ltb_spec n (length (map fst lc))) as [Hn|]; [|discriminate]. injection E1 as <-. rewrite map_length in Hn.
    pose proof V as (I & N & B & F). cbn [fst snd] in *. destruct (vec_set_ok _ _ _ _ _ c B F Hn) as (h & lc1 & E1 & U1 & V1 & F1).
    exists tt, h, (v, lc1). unfold on_chars, no_value. rewrite E1. split; [reflexivity|]. pose proof (upto_others _ _ _ _ U1) as O.
    split; [|split; [exact O|]].
    + eapply view_others; [exact V| | |]; cbn [fst]; auto. eapply upto_buf; eassumption.
    + eapply IH; [|exact H]. rewrite V1. exact E.
Qed.

(** The characters of the candidate, at [r], in the slab *)
Lemma safe_alloc_chars_p g mb text lc sl l' (Post : bref * metric_b -> bvec * cells char -> Prop) :
  candidate_alloc (map fst lc) text = Ok (sl, l') ->
  (forall r v lc', map fst lc' = l' -> pts lc' (v_addr v) (length lc') r sl -> Post (r, MkMetricB v (mb_rest mb)) (v, lc')) ->
  safe hs (alloc_chars_p g mb text) (mb_slab mb, lc) Post.
Proof.
  intros E H. unfold candidate_alloc in E. apply bind_ok in E as ([l1 n] & E1 & E). apply bind_ok in E as (sl1 & E2 & E). injection E as <- <-.
  rewrite chars_fill_words_alloc, grown in E1.
  unfold alloc_chars_p. cbn [safe]. intros mem V. pose proof V as (I & N & B & F). cbn [fst snd] in *.
  destruct (vec_grow_ok _ g _ _ _ (byte_len text) 0%N B F) as (v & h & lc1 & G & B1 & F1 & V1 & N1 & O1).
  assert (O : others (bm_chars mem) h (v_addr (mb_slab mb)) (v_addr v)).
  { intros b x Hb K. split; [apply O1; assumption|]. pose proof (buf_lt _ _ _ _ K) as Lb. destruct N1; lia. }
  exists v, h, (v, lc1). unfold on_chars at 1. rewrite G. split; [reflexivity|]. split; [|split; [exact O|]].
  { eapply view_others; [exact V| | |]; cbn [fst]; assumption. }
  apply safe_pbind. rewrite map_length, <- V1 in E1. eapply safe_fill_chars_p; [exact E1|]. intros lc2 V2.
  apply MemoryMetricProofs.slice_to_length in E2 as [Hn ->]. cbn [safe].
  clear mem V I N B F G N1 O O1 B1 F1. intros mem V. pose proof V as (I & N & B & F). cbn [fst snd] in *.
  destruct (vec_slice_ok _ _ _ _ 0 n B F) as (h3 & lc3 & r & E3 & U3 & C3 & F3 & P3 & _); [lia|rewrite <- (map_length fst lc2), V2; exact Hn|].
  exists r, h3, (v, lc3). unfold on_chars. rewrite E3. split; [reflexivity|]. pose proof (upto_others _ _ _ _ U3) as O.
  split; [|split; [exact O|]].
  { eapply view_others; [exact V| | |]; cbn [fst]; auto. eapply upto_buf; eassumption. }
  eexists. split; [reflexivity|]. apply H.
  - rewrite (chg_values _ _ _ _ C3). exact V2.
  - rewrite Nat.sub_0_r in P3. cbn [skipn] in P3. rewrite V2 in P3. exact P3.
Qed.

Lemma safe_store_changes_p v l S (Post : unit -> bvec * cells char -> Prop) : forall i, Post tt S -> safe hs (store_changes_p v i l l) S Post.
Proof.
  induction l as [|x l IH]; intros i H; cbn [store_changes_p safe]; [eauto|]. rewrite N.eqb_refl. apply IH. exact H.
Qed.

(** A candidate which a thread can read while its slab is [S] *)
Definition readable (S : bvec * cells char) (cb : candidate_b) (c : candidate) : Prop :=
  match cb, c with
  | AsciiB x, Ascii y => x = y
  | UnicodeB r, Unicode l => pts (snd S) (v_addr (fst S)) (length (snd S)) r l
  | _, _ => False
  end.

Lemma readable_read mem S cb c : view hs mem S -> readable S cb c -> read_candidate_b mem cb = Ok (c, mem).
Proof.
  intros (_ & _ & B & _). destruct cb as [x|r], c as [y|l]; cbn [readable read_candidate_b]; try contradiction.
  - intros ->. reflexivity.
  - intros P. rewrite (read_ok _ _ _ _ _ _ _ B P). cbn [bind]. rewrite set_chars_same. reflexivity.
Qed.

(** What can be read in all memories with the view *)
Definition pseen (pb : pattern_b) (p : pattern) : Prop := forall mem S, view hs mem S -> psim1 mem pb p.
Definition cseen (r : bref) (c : list pattern) : Prop := exists pbs,
  (forall mem S, view hs mem S -> read (bm_patterns mem) r = Ok (pbs, bm_patterns mem)) /\ Forall2 pseen pbs c.
Definition qseen (qb : query_b) (q : query) : Prop :=
  match qb, q with
  | NotExtendedB pb, NotExtended p => pseen pb p
  | ExtendedB r, Extended cs => exists rs, (forall mem S, view hs mem S -> read (bm_conditions mem) r = Ok (rs, bm_conditions mem))
      /\ b_len r = length rs /\ Forall2 cseen rs cs
  | _, _ => False
  end.


(** A query of these parsers *)
Definition held (qb : query_b) (q : query) : Prop := exists p l L D, hs p l L D /\ reads_of p l L D qb q.

Lemma held_qseen qb q : held qb q -> qseen qb q.
Proof.
  intros (p & l & L & D & HK & R). unfold reads_of in R.
  assert (P : forall pb p', prel l (v_addr (pb_chars p)) (length l) pb p' -> pseen pb p').
  { intros pb p' H mem S (I & _). destruct (I _ _ _ _ HK) as ((K1 & _) & _). eapply prel_psim; eassumption. }
  destruct qb as [r|pb], q as [cs|p']; cbn [reads qseen] in *; try contradiction; [|apply P; exact R].
  destruct R as (rs & Pr & F). exists rs. split; [|split].
  - intros mem S (I & _). destruct (I _ _ _ _ HK) as (_ & _ & (K3 & _)). eapply read_ok; eassumption.
  - symmetry. eapply pts_length; exact Pr.
  - eapply MemoryProofs.Forall2_imp; [|exact F]. intros x y (xs & Px & Fx). exists xs. split.
    + intros mem S (I & _). destruct (I _ _ _ _ HK) as (_ & (K2 & _) & _). eapply read_ok; eassumption.
    + eapply MemoryProofs.Forall2_imp; [|exact Fx]. exact P.
Qed.

Lemma held_empty qb q : held qb q -> q_is_empty_b qb = q_is_empty q.
Proof.
  intros (p & l & L & D & HK & R). unfold reads_of in R. destruct qb as [r|pb], q as [cs|p']; cbn [reads q_is_empty_b q_is_empty] in *; try contradiction.
  - destruct R as (rs & P & F). rewrite <- (pts_length _ _ _ _ _ _ P). destruct F; reflexivity.
  - destruct R as [P _]. rewrite <- (pts_length _ _ _ _ _ _ P). unfold p_is_empty. destruct (p_text p'); reflexivity.
Qed.

End Safe.

(** ** A search of a thread, for one of the two metrics *)
Section SafeSearch.
Context {UC : unicode}.
Variable hs : holding.
Context {St : Type}.
Variable inj : St -> metric.
Variable alloc : St -> str -> res (list char * St).
Variable ceq : St -> pattern -> char_eq_fn.
Variable sch : St -> scheme.
Variable fuz : bool -> St -> pattern -> candidate -> mranges -> res (option score * St * mranges).
Hypothesis score_inj : forall R st p c rg,
  metric_score R (inj st) p c rg = let* '(sc, st, rg) := fzf_score ceq sch fuz R st p c rg in Ok (sc, inj st, rg).
Hypothesis fuzzy_inj : forall R st p c rg,
  metric_fuzzy R (inj st) p c rg = let* '(sc, st, rg) := fuz R st p c rg in Ok (sc, inj st, rg).
Hypothesis alloc_slab : forall st s sl st', alloc st s = Ok (sl, st') -> exists l,
  candidate_alloc (slab_of (inj st)) s = Ok (sl, l) /\ inj st' = with_slab (inj st) l.
Hypothesis fuzzy_slab : forall R st p c rg sc st' rg', fuz R st p c rg = Ok (sc, st', rg') -> slab_of (inj st') = slab_of (inj st).

Let score_slab := MemoryMetricProofs.score_slab inj ceq sch fuz fuzzy_slab.
Let condition_slab := MemoryMetricProofs.condition_slab inj ceq sch fuz fuzzy_slab.
Notation enc := (enc inj).

Lemma safe_call_p f (g : St -> res (option score * St * mranges)) v lc st pb p cb c rg sc st' rg'
    (Post : option score * metric_b * mranges -> bvec * cells char -> Prop) :
  (forall st, f (inj st) p c rg = let* '(sc, st, rg) := g st in Ok (sc, inj st, rg)) ->
  slab_of (inj st') = slab_of (inj st) ->
  map fst lc = slab_of (inj st) -> pseen hs pb p -> readable (v, lc) cb c -> g st = Ok (sc, st', rg') ->
  Post (sc, enc v st', rg') (v, lc) -> safe hs (call_p f (enc v st) pb cb rg) (v, lc) Post.
Proof.
  intros Hf Hs El Hp Hc E H. unfold call_p. apply safe_look. intros mem V. exists p. split; [apply (Hp _ _ V)|].
  apply safe_look. clear mem V. intros mem V. exists c. split; [eapply readable_read; eassumption|].
  apply safe_look. clear mem V. intros mem V. exists (map fst lc). split.
  { destruct V as (_ & _ & B & _). cbn [fst snd] in B. unfold on_chars. cbn [enc mb_slab]. rewrite (buf_cells _ _ _ _ B). cbn [bind].
    rewrite set_chars_same. reflexivity. }
  cbn [enc mb_rest mb_slab BorrowsMetricProofs.enc]. rewrite El, MemoryMetricProofs.with_slab_twice, MemoryMetricProofs.with_slab_same, Hf, E. cbn [bind pbind]. rewrite Hs.
  apply safe_pbind, safe_store_changes_p. cbn [safe]. eexists. split; [reflexivity|]. exact H.
Qed.

Lemma safe_score_condition_p R v lc cb c : readable (v, lc) cb c -> forall pbs cs st rg sc st' rg' (Post : option score * metric_b * mranges -> bvec * cells char -> Prop),
  map fst lc = slab_of (inj st) -> Forall2 (pseen hs) pbs cs ->
  score_condition ceq sch fuz R st cs c rg = Ok (sc, st', rg') ->
  (map fst lc = slab_of (inj st') -> Post (sc, enc v st', rg') (v, lc)) -> safe hs (score_condition_p R (enc v st) pbs cb rg) (v, lc) Post.
Proof.
  intros Hc pbs cs st rg sc st' rg' Post A F. revert st rg A. induction F as [|pb p pbs cs Hp F IH]; intros st rg A E H; cbn [score_condition_p score_condition] in *.
  - injection E as <- <- <-. cbn [safe]. eauto.
  - apply safe_pbind. apply bind_ok in E as ([[sc1 st1] rg1] & E1 & E). pose proof (score_slab _ _ _ _ _ _ _ _ E1) as Es.
    eapply (safe_call_p (metric_score R) (fun st => fzf_score ceq sch fuz R st p c rg)); eauto. cbn beta iota. destruct sc1.
    + injection E as <- <- <-. cbn [safe]. eexists. split; [reflexivity|]. apply H. rewrite Es. exact A.
    + apply IH; try assumption. rewrite Es. exact A.
Qed.

Lemma safe_score_conditions_p R v lc cb c : readable (v, lc) cb c -> forall rs conds st total rg sc st' rg' (Post : option score * metric_b * mranges -> bvec * cells char -> Prop),
  map fst lc = slab_of (inj st) -> Forall2 (cseen hs) rs conds ->
  score_conditions ceq sch fuz R st conds c total rg = Ok (sc, st', rg') ->
  (map fst lc = slab_of (inj st') -> Post (sc, enc v st', rg') (v, lc)) -> safe hs (score_conditions_p R (enc v st) rs cb total rg) (v, lc) Post.
Proof.
  intros Hc rs conds st total rg sc st' rg' Post A F. revert st total rg A.
  induction F as [|r cs rs conds (pbs & E0 & F0) F IH]; intros st total rg A E H; cbn [score_conditions_p score_conditions] in *.
  - injection E as <- <- <-. cbn [safe]. eauto.
  - apply safe_look. intros mem V. exists pbs. rewrite (E0 _ _ V). cbn [bind]. rewrite set_patterns_same. split; [reflexivity|]. clear mem V.
    apply safe_pbind. apply bind_ok in E as ([[sc1 st1] rg1] & E1 & E). eapply safe_score_condition_p; try eassumption. intros A1. destruct sc1.
    + eapply IH; eassumption.
    + injection E as <- <- <-. cbn [safe]. eauto.
Qed.

Lemma safe_distance_p g R v lc st qb q cand bf d st' bf' (Post : option distance * metric_b * list range -> bvec * cells char -> Prop) :
  map fst lc = slab_of (inj st) -> qseen hs qb q -> q_is_empty_b qb = q_is_empty q ->
  fzf_distance alloc ceq sch fuz R st q cand bf = Ok (d, st', bf') ->
  (forall v' lc', map fst lc' = slab_of (inj st') -> Post (d, enc v' st', bf') (v', lc')) ->
  safe hs (distance_p g R (enc v st) qb cand bf) (v, lc) Post.
Proof.
  intros A Hq Ee E H. unfold fzf_distance in E. unfold distance_p. rewrite Ee. destruct (q_is_empty q).
  { injection E as <- <- <-. cbn [safe]. eauto. }
  apply bind_ok in E as ([c st1] & E1 & E). unfold fzf_search in E. apply bind_ok in E as ([[sc st2] rg] & E2 & E). injection E as <- <- <-.
  apply safe_pbind.
  assert (G : forall v1 lc1 cb, map fst lc1 = slab_of (inj st1) -> readable (v1, lc1) cb c ->
    safe hs (pbind (match qb with
       | NotExtendedB p => call_p (metric_fuzzy R) (enc v1 st1) p cb (mranges_from bf)
       | ExtendedB r =>
           Step (fun mem => let* '(conds, h) := read (bm_conditions mem) r in Ok (conds, set_conditions mem h)) (fun conds =>
           score_conditions_p R (enc v1 st1) conds cb 0 (mranges_from bf))
       end) (fun '(sc, mb, ranges) => Done (Ok (option_map from_score sc, mb, mr_ranges ranges)))) (v1, lc1) Post).
  { intros v1 lc1 cb A1 Hc. apply safe_pbind. destruct qb as [r|pb], q as [cs|p]; cbn [qseen] in Hq; try contradiction.
    - destruct Hq as (rs & E3 & _ & F3). apply safe_look. intros mem V. exists rs. rewrite (E3 _ _ V). cbn [bind]. rewrite set_conditions_same.
      split; [reflexivity|]. eapply safe_score_conditions_p; try eassumption. intros A2. cbn [safe]. eauto.
    - assert (Es : slab_of (inj st2) = slab_of (inj st1)) by (eapply fuzzy_slab; exact E2).
      eapply (safe_call_p (metric_fuzzy R) (fun st => fuz R st p c (mranges_from bf))); eauto.
      cbn [safe]. eexists. split; [reflexivity|]. apply H. rewrite Es. exact A1. }
  destruct (str_is_ascii cand).
  - injection E1 as <- <-. cbn [safe]. eexists. split; [reflexivity|]. cbn beta iota. apply G; [exact A|reflexivity].
  - apply bind_ok in E1 as ([sl st3] & E1 & E4). injection E4 as <- <-. destruct (alloc_slab _ _ _ _ E1) as (l & E3 & E4). apply safe_pbind.
    rewrite <- A in E3. change (mb_slab (enc v st)) with v. apply (safe_alloc_chars_p hs g (enc v st) cand lc sl l _ E3).
    intros r v1 lc1 V1 P1. cbn [safe]. eexists. split; [reflexivity|]. cbn beta iota.
    change (MkMetricB v1 (mb_rest (enc v st))) with (MkMetricB v1 (with_slab (inj st) [])).
    replace (MkMetricB v1 (with_slab (inj st) [])) with (enc v1 st3).
    2:{ unfold BorrowsMetricProofs.enc. rewrite E4, MemoryMetricProofs.with_slab_twice. reflexivity. }
    apply G; [|exact P1]. rewrite E4, MemoryMetricProofs.slab_with_slab. exact V1.
Qed.

End SafeSearch.

(** ** A thread *)
Section SafeThread.
Context {UC : unicode}.
Variable hs : holding.

Lemma safe_metric_p g R v lc m qb q cand bf d m' bf' (Post : option distance * metric_b * list range -> bvec * cells char -> Prop) :
  map fst lc = slab_of m -> qseen hs qb q -> q_is_empty_b qb = q_is_empty q ->
  match m with
  | V1 m => let* '(d, m, bf) := v1_fzf_distance R m q cand bf in Ok (d, V1 m, bf)
  | V2 m => let* '(d, m, bf) := v2_fzf_distance R m q cand bf in Ok (d, V2 m, bf)
  end = Ok (d, m', bf') ->
  (forall v' lc', map fst lc' = slab_of m' -> Post (d, MkMetricB v' (with_slab m' []), bf') (v', lc')) ->
  safe hs (distance_p g R (MkMetricB v (with_slab m [])) qb cand bf) (v, lc) Post.
Proof.
  intros A Hq Ee E H. destruct m as [m|m]; apply bind_ok in E as ([[d1 m1] b1] & E1 & E); injection E as <- <- <-.
  - apply (safe_distance_p hs V1 v1_alloc_chars v1_char_eq v1_scoring_scheme v1_fuzzy) with (q := q) (d := d1) (st' := m1) (bf' := b1); auto.
    + intros st s sl st' X. unfold v1_alloc_chars in X. apply bind_ok in X as ([x y] & X & X'). injection X' as <- <-. exists y. auto.
    + intros R' st p c rg sc st' rg' X. apply MemoryMetricProofs.v1_fuzzy_same in X. subst. reflexivity.
  - apply (safe_distance_p hs V2 v2_alloc_chars v2_char_eq v2_scoring_scheme v2_fuzzy) with (q := q) (d := d1) (st' := m1) (bf' := b1); auto.
    + intros st s sl st' X. unfold v2_alloc_chars in X. apply bind_ok in X as ([x y] & X & X'). injection X' as <- <-. exists y. auto.
    + intros R' st p c rg sc st' rg' X. apply MemoryMetricProofs.v2_fuzzy_slab in X. exact X.
Qed.

(** A metric in memory while no search is running *)
Definition resting (a : algo) (o : options) (mb : metric_b) (S : bvec * cells char) : Prop :=
  exists m, mb = MkMetricB (fst S) (with_slab m []) /\ map fst (snd S) = slab_of m /\ metric_reached a o m.

Definition held_call (c : tcall) : Prop := held hs (bl_query (tc_loan c)) (wanted (bl_extended (tc_loan c)) (bl_string (tc_loan c))).

Lemma safe_search_p a o mb c S : resting a o mb S -> held_call c ->
  safe hs (search_p mb c) S (fun r S' => resting a o (snd r) S' /\ answers a o c (fst r)).
Proof.
  intros (m & -> & A & Hm) Hb. destruct S as [v lc]. cbn [fst snd] in *. set (b := tc_loan c) in *.
  destruct (reached_result a o (wanted (bl_extended b) (bl_string b)) (tc_cand c) (MemoryMetricProofs.wanted_reached _ _)) as (d & new & _ & _ & R).
  pose proof (held_qseen _ _ _ Hb) as Hq. pose proof (held_empty _ _ _ Hb) as He. fold b in Hq, He.
  unfold search_p. fold b. destruct (tc_ranges c) as [bf|] eqn:Er; apply safe_pbind.
  - destruct (R m Hm) as [_ R']. destruct (R' bf) as (m' & Hm' & E). eapply safe_metric_p; try eassumption.
    intros v' lc' A'. cbn [safe]. eexists. split; [reflexivity|]. cbn [fst snd]. split.
    + exists m'. auto.
    + exists (wanted (bl_extended b) (bl_string b)). split; [apply wanted_parse|]. rewrite Er. cbn [fst snd]. intros m1 H1.
      destruct (R m1 H1) as [_ R1]. destruct (R1 bf) as (m2 & _ & E2). eauto.
  - destruct (R m Hm) as [(m' & Hm' & E) _].
    assert (G : exists bf', match m with
      | V1 m => let* '(d, m, bf) := v1_fzf_distance false m (wanted (bl_extended b) (bl_string b)) (tc_cand c) [] in Ok (d, V1 m, bf)
      | V2 m => let* '(d, m, bf) := v2_fzf_distance false m (wanted (bl_extended b) (bl_string b)) (tc_cand c) [] in Ok (d, V2 m, bf)
      end = Ok (d, m', bf')).
    { destruct m as [m|m]; cbn [metric_distance] in E; apply bind_ok in E as ([d1 m1] & E1 & E); injection E as <- <-;
        apply bind_ok in E1 as ([[d2 m2] b2] & E1 & E); injection E as <- <-; rewrite E1; exists b2; reflexivity. }
    destruct G as (bf' & G). eapply safe_metric_p; try eassumption.
    intros v' lc' A'. cbn [safe]. eexists. split; [reflexivity|]. cbn [fst snd]. split.
    + exists m'. auto.
    + exists (wanted (bl_extended b) (bl_string b)). split; [apply wanted_parse|]. rewrite Er. cbn [fst snd]. intros m1 H1.
      split; [reflexivity|]. destruct (R m1 H1) as [(m2 & _ & E2) _]. eauto.
Qed.

Lemma safe_thread_p a o cs : forall mb S, resting a o mb S -> (forall c, In c cs -> held_call c) ->
  safe hs (thread_p mb cs) S (fun r S' => resting a o (fst r) S' /\ Forall2 (answers a o) cs (snd r)).
Proof.
  induction cs as [|c cs IH]; intros mb S Hr Hc; cbn [thread_p].
  - cbn [safe]. eexists. split; [reflexivity|]. cbn [fst snd]. auto.
  - apply safe_pbind. eapply safe_imp; [|apply (safe_search_p a o mb c S Hr); apply Hc; left; reflexivity].
    intros [[d rs] mb1] S1 [H1 H2]. cbn [fst snd] in *. apply safe_pbind. eapply safe_imp; [|apply (IH mb1 S1 H1); intros c' Hc'; apply Hc; right; exact Hc'].
    intros [mb2 out] S2 [H3 H4]. cbn [fst snd] in *. cbn [safe]. eexists. split; [reflexivity|]. cbn [fst snd]. auto.
Qed.

End SafeThread.

(** ** All threads *)
Lemma forall2_nth A B (R : A -> B -> Prop) l l' : Forall2 R l l' -> forall n x y, nth_error l n = Some x -> nth_error l' n = Some y -> R x y.
Proof. induction 1 as [|a b l l' H F IH]; intros [|n] x y Hx Hy; cbn [nth_error] in *; try discriminate; [congruence|eauto]. Qed.
Notation thread := (prog (metric_b * list (option distance * list range))).

(** The parsers of a program and what their buffers hold in [mem0] *)
Definition holdings (ps : list (option parser_b)) (mem0 : bmemory) : holding := fun p l L D =>
  (exists j, nth_error ps j = Some (Some p)) /\ live mem0 p l L D.

Lemma inv_same {UC : unicode} ps ls mem0 mem : inv (MkBWorld mem0 ps ls) -> (forall p l L D, holdings ps mem0 p l L D -> live mem p l L D) ->
  inv (MkBWorld mem ps ls).
Proof.
  intros [I1 I2 I3] E. cbn [bw_mem bw_parsers bw_loans] in *. constructor; cbn [bw_mem bw_parsers bw_loans].
  - intros i p H. destruct (I1 _ _ H) as (l & L & D & X & Hl). exists l, L, D. split; [|exact Hl]. apply E. split; eauto.
  - exact I2.
  - intros b Hb. destruct (I3 _ Hb) as (p & l & L & D & H & X & R). exists p, l, L, D. split; [exact H|]. split; [|exact R]. apply E. split; eauto.
Qed.

Section Threads.
Context {UC : unicode}.
Variables (ps : list (option parser_b)) (ls : list bloan) (mem0 : bmemory) (ms : list (option bowned)).
Variable jobs : list (nat * list tcall).
Hypothesis I0 : inv (MkBWorld mem0 ps ls).
Hypothesis ND : NoDup (map fst jobs).

(** What a thread must end with *)
Definition goal (k : bowned) (cs : list tcall) (r : metric_b * list (option distance * list range)) (S : bvec * cells char) : Prop :=
  resting (bo_algo k) (bo_options k) (fst r) S /\ Forall2 (answers (bo_algo k) (bo_options k)) cs (snd r).

(** What holds while the threads run; [V i] and [L i] are the slab of metric [i] and its elements *)
Record tinv (V : nat -> bvec) (L : nat -> cells char) (mem : bmemory) (ts : list thread) : Prop := MkTinv {
  ti_view : forall i k, nth_error ms i = Some (Some k) -> view (holdings ps mem0) mem (V i, L i);
  ti_same : forall p l L D, holdings ps mem0 p l L D -> live mem p l L D;
  ti_apart : forall i j k k', i <> j -> nth_error ms i = Some (Some k) -> nth_error ms j = Some (Some k') -> v_addr (V i) <> v_addr (V j);
  ti_length : length ts = length jobs;
  ti_threads : forall n i cs t, nth_error jobs n = Some (i, cs) -> nth_error ts n = Some t ->
    exists k, nth_error ms i = Some (Some k) /\ safe (holdings ps mem0) t (V i, L i) (goal k cs);
  ti_idle : forall i k, nth_error ms i = Some (Some k) -> ~ In i (map fst jobs) -> resting (bo_algo k) (bo_options k) (bo_metric k) (V i, L i)
}.

Lemma jobs_apart n n' i cs cs' : nth_error jobs n = Some (i, cs) -> nth_error jobs n' = Some (i, cs') -> n = n'.
Proof.
  intros H H'. apply (map_nth_error fst) in H, H'. cbn [fst] in *. eapply (proj1 (NoDup_nth_error _) ND).
  - apply nth_error_Some. congruence.
  - congruence.
Qed.

Lemma tinv_sched V L st st' : tinv V L (fst st) (snd st) -> sched st st' -> exists V' L', tinv V' L' (fst st') (snd st').
Proof.
  intros [T1 T2 T3 T4 T5 T6] H. destruct H as [mem ts n t mem' t' Hn Hd E]. cbn [fst snd] in *.
  assert (Hj : exists i cs, nth_error jobs n = Some (i, cs)).
  { destruct (nth_error jobs n) as [[i cs]|] eqn:Hj; [eauto|]. apply nth_error_None in Hj. assert (n < length ts) by (apply nth_error_Some; congruence). lia. }
  destruct Hj as (i & cs & Hj). destruct (T5 _ _ _ _ Hj Hn) as (k & Hk & Hs).
  destruct t as [r|B op kt]; [discriminate|]. cbn [safe] in Hs. destruct (Hs _ (T1 _ _ Hk)) as (y & h & S' & Eo & V' & O & K).
  cbn [thread_step] in E. rewrite Eo in E. injection E as <- <-.
  exists (fun j => if j =? i then fst S' else V j), (fun j => if j =? i then snd S' else L j).
  assert (Eta : (fst S', snd S') = S') by (destruct S'; reflexivity).
  assert (Hlt : n < length ts) by (apply nth_error_Some; congruence).
  constructor.
  - intros j k' Hj'. destruct (Nat.eqb_spec j i) as [->|Hji]; [rewrite Eta; exact V'|].
    destruct (T1 _ _ Hj') as (_ & W2 & W3 & W4). cbn [fst snd] in *. split; [apply V'|]. split; [exact W2|]. split; [|exact W4].
    cbn [fst snd set_chars bm_chars]. apply O; [|exact W3]. eapply T3; eassumption.
  - apply V'.
  - assert (F : forall j k', j <> i -> nth_error ms j = Some (Some k') -> v_addr (V j) <> v_addr (fst S')).
    { intros j k' Hji Hj'. destruct (T1 _ _ Hj') as (_ & _ & W3 & _). apply (O _ _ (T3 _ _ _ _ Hji Hj' Hk) W3). }
    intros j1 j2 k1 k2 Hne H1 H2. destruct (Nat.eqb_spec j1 i) as [->|N1]; destruct (Nat.eqb_spec j2 i) as [->|N2].
    + contradiction.
    + intros X. apply (F _ _ N2 H2). congruence.
    + apply (F _ _ N1 H1).
    + eapply T3; eassumption.
  - rewrite length_upd. exact T4.
  - intros n' i' cs' t' H1 H2. rewrite nth_error_upd in H2. destruct (Nat.eqb_spec n' n) as [->|Hnn].
    + rewrite Hj in H1. injection H1 as <- <-. apply Nat.ltb_lt in Hlt. rewrite Hlt in H2. cbn [andb] in H2. injection H2 as <-.
      rewrite Nat.eqb_refl, Eta. exists k. auto.
    + cbn [andb] in H2. destruct (Nat.eqb_spec i' i) as [->|Hii].
      * exfalso. apply Hnn. eapply jobs_apart; eassumption.
      * apply (T5 _ _ _ _ H1 H2).
  - intros j k' Hj' Hni. destruct (Nat.eqb_spec j i) as [->|Hji]; [|apply T6; assumption].
    exfalso. apply Hni. apply nth_error_In in Hj. apply (in_map fst) in Hj. exact Hj.
Qed.

Lemma tinv_schedule V L st st' : tinv V L (fst st) (snd st) -> schedule st st' -> exists V' L', tinv V' L' (fst st') (snd st').
Proof.
  intros T H. revert V L T. induction H as [st|st1 st2 st3 H IH H']; intros V L T; [eauto|].
  destruct (IH _ _ T) as (V1 & L1 & T1). eapply tinv_sched; eassumption.
Qed.

(** A thread which is finished has its results *)
Lemma tinv_done V L mem ts n i cs r : tinv V L mem ts -> nth_error jobs n = Some (i, cs) -> nth_error ts n = Some (Done r) ->
  exists k x, nth_error ms i = Some (Some k) /\ r = Ok x /\ goal k cs x (V i, L i).
Proof.
  intros T Hj Hn. destruct (ti_threads _ _ _ _ T _ _ _ _ Hj Hn) as (k & Hk & x & E & G). exists k, x. auto.
Qed.

End Threads.

(** *** The metrics after the threads *)
Lemma joined_other i ts : forall jobs ms, ~ In i (map fst jobs) -> nth_error (joined ms jobs ts) i = nth_error ms i.
Proof.
  induction ts as [|t ts IH]; intros [|[j cs] jobs] ms H; cbn [joined]; auto. cbn [map fst In] in H.
  destruct t as [[[mb out]| |]|]; auto. rewrite IH by auto. destruct (nth_error ms j) as [[k|]|]; auto.
  rewrite nth_error_upd. destruct (Nat.eqb_spec i j); [exfalso; auto|reflexivity].
Qed.

Lemma joined_at ts : forall jobs ms n i cs mb out k, NoDup (map fst jobs) ->
  Forall (fun t => exists x, t = Done (Ok x)) ts -> nth_error jobs n = Some (i, cs) -> nth_error ts n = Some (Done (Ok (mb, out))) ->
  nth_error ms i = Some (Some k) -> nth_error (joined ms jobs ts) i = Some (Some (MkBOwned (bo_algo k) (bo_options k) mb)).
Proof.
  induction ts as [|t ts IH]; intros [|[j cs'] jobs] ms [|n] i cs mb out k ND F Hj Ht Hk; cbn [nth_error] in *; try discriminate.
  - injection Hj as -> ->. injection Ht as ->. cbn [joined]. cbn [map fst] in ND. inversion ND; subst. rewrite joined_other by assumption.
    rewrite Hk, nth_error_upd, Nat.eqb_refl. assert (Hlt : i < length ms) by (apply nth_error_Some; congruence). apply Nat.ltb_lt in Hlt. rewrite Hlt. reflexivity.
  - inversion F as [|? ? ([mb' out'] & ->) F']; subst. cbn [joined]. cbn [map fst] in ND. inversion ND as [|? ? N1 N2]; subst.
    eapply IH; try eassumption.
    assert (i <> j). { intros ->. apply N1. apply nth_error_In in Hj. apply (in_map fst) in Hj. exact Hj. }
    destruct (nth_error ms j) as [[k'|]|]; auto. rewrite nth_error_upd. destruct (Nat.eqb_spec i j); [contradiction|exact Hk].
Qed.

Lemma joined_length ts : forall jobs ms, length (joined ms jobs ts) = length ms.
Proof.
  induction ts as [|t ts IH]; intros [|[j cs] jobs] ms; cbn [joined]; auto. destruct t as [[[mb out]| |]|]; auto. rewrite IH.
  destruct (nth_error ms j) as [[k|]|]; auto. apply length_upd.
Qed.

Section Programs.
Context {UC : unicode}.

Lemma tinv_start g jobs ts : pinv g -> spawned g jobs ts ->
  exists V L, tinv (bw_parsers (bp_world g)) (bw_mem (bp_world g)) (bp_metrics g) jobs V L (bw_mem (bp_world g)) ts.
Proof.
  intros [I1 I2 I3 I4] [ND F]. destruct g as [[mem ps ls] ms]. cbn [bp_world bp_metrics bw_parsers bw_mem bw_loans] in *.
  set (V := fun i => match nth_error ms i with Some (Some k) => mb_slab (bo_metric k) | _ => MkVec 0 0 end).
  set (L := fun i => match nth_error (hp (bm_chars mem)) (v_addr (V i)) with Some (Some l) => l | _ => [] end).
  assert (W : forall i k, nth_error ms i = Some (Some k) -> V i = mb_slab (bo_metric k)
    /\ buf (bm_chars mem) (v_addr (V i)) (L i) /\ base (v_tag (V i)) (L i) /\ resting (bo_algo k) (bo_options k) (bo_metric k) (V i, L i)).
  { intros i k Hi. assert (EV : V i = mb_slab (bo_metric k)) by (unfold V; rewrite Hi; reflexivity). split; [exact EV|].
    destruct (I2 _ _ Hi) as (m & (lc & B & Fb & E) & Er & Hm).
    assert (EL : L i = lc) by (unfold L; rewrite EV; unfold buf in B; rewrite B; reflexivity). rewrite EL, EV. split; [exact B|]. split; [exact Fb|].
    exists m. cbn [fst snd]. split; [|split; [exact E|exact Hm]]. rewrite <- Er. destruct (bo_metric k); reflexivity. }
  assert (SP : forall p l L D, holdings ps mem p l L D -> live mem p l L D) by (intros p l L' D [_ H]; exact H).
  exists V, L. constructor.
  - intros i k Hi. destruct (W _ _ Hi) as (EV & B & Fb & _). split; [exact SP|]. cbn [fst snd]. split; [|split; assumption].
    intros p l L' D [(j & Hj) _]. rewrite EV. eapply I3; eassumption.
  - exact SP.
  - intros i j k k' Hij Hi Hj. destruct (W _ _ Hi) as (-> & _), (W _ _ Hj) as (-> & _). eapply I4; eassumption.
  - clear -F. induction F; cbn [length]; congruence.
  - intros n i cs t Hj Ht. destruct (forall2_nth _ _ _ _ _ F _ _ _ Hj Ht) as (k & Hk & Hc & ->). cbn [fst snd] in *.
    exists k. split; [exact Hk|]. apply safe_thread_p; [apply (W _ _ Hk)|].
    intros c Hin. destruct (iv_loans _ I1 _ (Hc _ Hin)) as (p & l & L' & D & Hp & X & R). exists p, l, L', D. split; [split; eauto|exact R].
  - intros i k Hi _. apply (W _ _ Hi).
Qed.

Lemma all_done jobs V L ps mem0 ms mem ts : tinv ps mem0 ms jobs V L mem ts -> forallb is_done ts = true ->
  Forall (fun t => exists x, t = Done (Ok x)) ts.
Proof.
  intros T H. apply Forall_forall. intros t Ht. rewrite forallb_forall in H. specialize (H _ Ht). destruct t as [r|]; [|discriminate].
  apply In_nth_error in Ht as (n & Hn). destruct (nth_error jobs n) as [[i cs]|] eqn:Hj.
  - destruct (tinv_done _ _ _ _ _ _ _ _ _ _ _ _ T Hj Hn) as (k & x & _ & -> & _). eauto.
  - apply nth_error_None in Hj. rewrite <- (ti_length _ _ _ _ _ _ _ _ T) in Hj. assert (n < length ts) by (apply nth_error_Some; congruence). lia.
Qed.

Lemma pinv_threads g jobs ts mem ts' : pinv g -> spawned g jobs ts -> schedule (bw_mem (bp_world g), ts) (mem, ts') -> forallb is_done ts' = true ->
  pinv (MkBProgram (with_bmem (bp_world g) mem) (joined (bp_metrics g) jobs ts')).
Proof.
  intros I Sp Sc Hd. destruct (tinv_start _ _ _ I Sp) as (V0 & L0 & T0). destruct Sp as [ND _].
  destruct (tinv_schedule _ _ _ _ ND _ _ (_, _) (_, _) T0 Sc) as (V & L & T). cbn [fst snd] in T. pose proof (all_done _ _ _ _ _ _ _ _ T Hd) as Fd.
  pose proof (pv_inv _ I) as I1. destruct g as [[mem0 ps ls] ms]. cbn [bp_world bp_metrics bw_parsers bw_mem bw_loans with_bmem] in *.
  assert (W : forall i k, nth_error (joined ms jobs ts') i = Some (Some k) -> exists k0, nth_error ms i = Some (Some k0)
    /\ resting (bo_algo k) (bo_options k) (bo_metric k) (V i, L i)).
  { intros i k Hi. destruct (in_dec Nat.eq_dec i (map fst jobs)) as [Hin|Hni].
    - apply in_map_iff in Hin as ([i' cs] & E & Hin). cbn [fst] in E. subst i'. apply In_nth_error in Hin as (n & Hn).
      destruct (nth_error ts' n) as [t|] eqn:Ht.
      2:{ apply nth_error_None in Ht. rewrite (ti_length _ _ _ _ _ _ _ _ T) in Ht. assert (n < length jobs) by (apply nth_error_Some; congruence). lia. }
      pose proof (proj1 (Forall_forall _ _) Fd _ (nth_error_In _ _ Ht)) as ([mb out] & ->).
      destruct (tinv_done _ _ _ _ _ _ _ _ _ _ _ _ T Hn Ht) as (k0 & x & Hk0 & Ex & G & _). injection Ex as <-. cbn [fst] in G.
      rewrite (joined_at _ _ _ _ _ _ _ _ _ ND Fd Hn Ht Hk0) in Hi. injection Hi as <-. exists k0. auto.
    - rewrite joined_other in Hi by assumption. exists k. split; [exact Hi|]. apply (ti_idle _ _ _ _ _ _ _ _ T); assumption. }
  constructor; cbn [bp_world bp_metrics bw_mem bw_parsers].
  - eapply inv_same; [exact I1|apply (ti_same _ _ _ _ _ _ _ _ T)].
  - intros i k Hi. destruct (W _ _ Hi) as (k0 & Hk0 & m & Em & El & Hm). cbn [fst snd] in *. exists m. rewrite Em. cbn [mb_slab mb_rest].
    destruct (ti_view _ _ _ _ _ _ _ _ T _ _ Hk0) as (_ & _ & B & F). cbn [fst snd] in *. split; [|auto]. exists (L i). auto.
  - intros i k j p Hi Hj. destruct (W _ _ Hi) as (k0 & Hk0 & m & Em & El & Hm). rewrite Em. cbn [mb_slab fst].
    destruct (ti_view _ _ _ _ _ _ _ _ T _ _ Hk0) as (_ & N & _). destruct (iv_live _ I1 _ _ Hj) as (l & L' & D & X & _). apply (N p l L' D). split; eauto.
  - intros i j k k' Hij Hi Hj. destruct (W _ _ Hi) as (k0 & Hk0 & m & Em & _). destruct (W _ _ Hj) as (k1 & Hk1 & m1 & Em1 & _).
    rewrite Em, Em1. cbn [mb_slab fst]. apply (ti_apart _ _ _ _ _ _ _ _ T _ _ _ _ Hij Hk0 Hk1).
Qed.

Lemma pinv_treached g : tprogram_reached g -> pinv g.
Proof.
  induction 1 as [|g g' _ IH H|g jobs ts mem ts' _ IH Sp Sc Hd].
  - apply pinv_reached. constructor.
  - eapply pinv_step; eassumption.
  - eapply pinv_threads; eassumption.
Qed.

End Programs.
