(** Proofs about threads which parse and search (Workers.v). *)
From Verif Require MemoryProofs.
From Verif Require MemoryMetricProofs.
From Verif Require Import Prelude Chars Utils Candidate MatchedRanges Query Parser Scoring Slab Fzf FzfV1 FzfV2 Api History
  MemoryMetric Borrows BorrowsMetric BorrowsThreads Workers Spec SpecThreads SpecWorkers PreludeProofs CharsProofs ParserProofs V1Proofs BorrowsProofs BorrowsParser
  BorrowsMetricProofs BorrowsThreadsProofs ApiProofs Claims1.
Local Open Scope nat_scope.

(** A thread's own parser and what its buffers hold *)
Record own := MkOwn { ow_p : parser_b; ow_l : cells char; ow_L : cells pattern_b; ow_D : cells bref }.
Notation olive mem R := (live mem (ow_p R) (ow_l R) (ow_L R) (ow_D R)).
Notation slab := (bvec * cells char)%type.

(** These parsers and one more *)
Definition with_own (K : holding) (R : own) : holding := fun p l L D => K p l L D \/ MkOwn p l L D = R.

(** What a thread relies on *)
Definition view2 (K : holding) (mem : bmemory) (S : slab) (R : own) : Prop :=
  view (with_own K R) mem S /\ (forall p l L D, K p l L D -> apart p (ow_p R)) /\ 64 <= length (ow_l R).

(** What a thread promises: parsers apart from its own, and buffers other than its own, stay as they are *)
Definition frame (mem mem' : bmemory) (S : slab) (R : own) (S' : slab) (R' : own) : Prop :=
  (forall p l L D, live mem p l L D -> apart p (ow_p R) -> v_addr (pb_chars p) <> v_addr (fst S) ->
     live mem' p l L D /\ apart p (ow_p R') /\ v_addr (pb_chars p) <> v_addr (fst S'))
  /\ (forall b x, b <> v_addr (fst S) -> b <> v_addr (pb_chars (ow_p R)) -> buf (bm_chars mem) b x ->
     buf (bm_chars mem') b x /\ b <> v_addr (fst S') /\ b <> v_addr (pb_chars (ow_p R'))).

Fixpoint safe2 {A} (K : holding) (t : prog A) (S : slab) (R : own) (Post : A -> slab -> own -> Prop) : Prop :=
  match t with
  | Done r => exists x, r = Ok x /\ Post x S R
  | Step op k => forall mem, view2 K mem S R -> exists y mem' S' R',
      op mem = Ok (y, mem') /\ view2 K mem' S' R' /\ frame mem mem' S R S' R' /\ safe2 K (k y) S' R' Post
  end.

Section Safe2.
Context {UC : unicode}.
Variable hs : holding.

Lemma safe2_pbind A B (p : prog A) (f : A -> prog B) Post : forall S R,
  safe2 hs p S R (fun x S' R' => safe2 hs (f x) S' R' Post) -> safe2 hs (pbind p f) S R Post.
Proof.
  induction p as [r|C op k IH]; intros S R; cbn [safe2 pbind].
  - intros (x & -> & H). exact H.
  - intros H mem V. destruct (H mem V) as (y & mem' & S' & R' & E & V' & O & G). exists y, mem', S', R'. auto.
Qed.

Lemma safe2_imp A (p : prog A) (P Q : A -> slab -> own -> Prop) : forall S R,
  (forall x S' R', P x S' R' -> Q x S' R') -> safe2 hs p S R P -> safe2 hs p S R Q.
Proof.
  induction p as [r|C op k IH]; intros S R I; cbn [safe2].
  - intros (x & E & H). exists x. auto.
  - intros H mem V. destruct (H mem V) as (y & mem' & S' & R' & E & V' & O & G). exists y, mem', S', R'.
    split; [exact E|]. split; [exact V'|]. split; [exact O|]. apply (IH y); assumption.
Qed.

Lemma others_frame mem h S S' R : others (bm_chars mem) h (v_addr (fst S)) (v_addr (fst S')) -> frame mem (set_chars mem h) S R S' R.
Proof.
  intros O. split.
  - intros p l L D ((K1 & K1') & K2 & K3) Ap Hne. destruct (O _ _ Hne K1) as [J1 J2].
    split; [|split; [exact Ap|exact J2]]. split; [split; [exact J1|exact K1']|]. split; assumption.
  - intros b x Hb Hb' B. cbn [set_chars bm_chars]. destruct (O _ _ Hb B) as [J1 J2]. auto.
Qed.

(** A search leaves the own parser alone *)
Lemma safe_safe2 A (p : prog A) R Post : forall S, safe (with_own hs R) p S Post ->
  safe2 hs p S R (fun x S' R' => R' = R /\ Post x S').
Proof.
  induction p as [r|C op k IH]; intros S; cbn [safe safe2].
  - intros (x & -> & H). eauto.
  - intros H mem (V & Ap & Hl). destruct (H mem V) as (y & h & S' & E & V' & O & G). exists y, (set_chars mem h), S', R.
    split; [exact E|]. split; [split; [exact V'|split; [exact Ap|exact Hl]]|]. split; [apply others_frame; exact O|]. apply IH. exact G.
Qed.

(** The query which a thread has parsed last *)
Definition cur_ok (j : nat) (R : own) (cur : option bloan) : Prop :=
  match cur with
  | None => True
  | Some b => bl_parser b = j /\ reads_of (ow_p R) (ow_l R) (ow_L R) (ow_D R) (bl_query b) (wanted (bl_extended b) (bl_string b))
  end.

Lemma view2_parts mem S R : view2 hs mem S R ->
  (forall p l L D, hs p l L D -> live mem p l L D /\ v_addr (pb_chars p) <> v_addr (fst S) /\ apart p (ow_p R))
  /\ olive mem R /\ v_addr (pb_chars (ow_p R)) <> v_addr (fst S) /\ buf (bm_chars mem) (v_addr (fst S)) (snd S) /\ base (v_tag (fst S)) (snd S)
  /\ 64 <= length (ow_l R).
Proof.
  intros ((I & N & B & F) & Ap & Hl). split.
  - intros p l L D H. split; [apply I; left; exact H|]. split; [eapply N; left; exact H|eapply Ap; exact H].
  - assert (W : with_own hs R (ow_p R) (ow_l R) (ow_L R) (ow_D R)) by (right; destruct R; reflexivity).
    split; [apply I; exact W|]. split; [eapply N; exact W|]. auto.
Qed.

Lemma view2_of mem S R :
  (forall p l L D, hs p l L D -> live mem p l L D /\ v_addr (pb_chars p) <> v_addr (fst S) /\ apart p (ow_p R)) ->
  olive mem R -> v_addr (pb_chars (ow_p R)) <> v_addr (fst S) -> buf (bm_chars mem) (v_addr (fst S)) (snd S) -> base (v_tag (fst S)) (snd S) ->
  64 <= length (ow_l R) -> view2 hs mem S R.
Proof.
  intros H1 H2 H3 H4 H5 H6. split; [|split; [|exact H6]].
  - split; [|split; [|split; assumption]]; intros p l L D [H|<-]; try (apply (H1 _ _ _ _ H)); assumption.
  - intros p l L D H. apply (H1 _ _ _ _ H).
Qed.

Lemma safe2_parse_p j g1 g2 g3 extended S R s (Post : bloan * parser_b -> slab -> own -> Prop) : (extended = false -> length s <= 64) ->
  (forall b p R', ow_p R' = p -> cur_ok j R' (Some b) -> bl_extended b = extended -> bl_string b = s -> Post (b, p) S R') ->
  safe2 hs (parse_p j g1 g2 g3 extended (ow_p R) s) S R Post.
Proof.
  intros Hs HP. unfold parse_p. cbn [safe2]. intros mem V. destruct (view2_parts _ _ _ V) as (H1 & H2 & H3 & H4 & H5 & H6). destruct extended.
  - destruct (parse_b_ok g1 g2 g3 _ _ _ _ _ s H2) as (qb & p' & mem' & l' & L' & D' & E & Lv & Rd & El & F1 & F2). rewrite E. cbn [bind].
    destruct (F2 _ _ (fun X => H3 (eq_sym X)) H4) as [B' N']. exists (MkBLoan j qb true s, p'), mem', S, (MkOwn p' l' L' D').
    split; [reflexivity|]. cbn [ow_p ow_l ow_L ow_D]. split; [|split].
    + apply view2_of; cbn [ow_p ow_l ow_L ow_D]; auto; [|lia]. intros p l L D H. destruct (H1 _ _ _ _ H) as (J1 & J2 & J3).
      destruct (F1 _ _ _ _ J3 J1) as [J4 J5]. auto.
    + split; cbn [ow_p].
      * intros p l L D J1 J3 J2. destruct (F1 _ _ _ _ J3 J1) as [J4 J5]. auto.
      * intros b x Hb Hb' B. destruct (F2 _ _ Hb' B) as [J4 J5]. auto.
    + eexists. split; [reflexivity|]. apply HP; try reflexivity. cbn [cur_ok bl_parser bl_query bl_extended bl_string ow_p ow_l ow_L ow_D]. auto.
  - pose proof (parse_not_extended_b_ok _ _ _ _ _ s H2) as G. destruct (Nat.leb_spec (length s) (length (ow_l R))) as [_|Hlt]; [|specialize (Hs eq_refl); lia].
    destruct G as (qb & mem' & l' & E & Lv & Rd & El & F1 & F2). rewrite E. cbn [bind].
    exists (MkBLoan j qb false s, ow_p R), mem', S, (MkOwn (ow_p R) l' (ow_L R) (ow_D R)).
    split; [reflexivity|]. cbn [ow_p ow_l ow_L ow_D]. split; [|split].
    + apply view2_of; cbn [ow_p ow_l ow_L ow_D]; auto; [|lia]. intros p l L D H. destruct (H1 _ _ _ _ H) as (J1 & J2 & J3). auto.
    + split; cbn [ow_p].
      * intros p l L D J1 J3 J2. auto.
      * intros b x Hb Hb' B. auto.
    + eexists. split; [reflexivity|]. apply HP; try reflexivity. cbn [cur_ok bl_parser bl_query bl_extended bl_string ow_p ow_l ow_L ow_D]. auto.
Qed.

Lemma safe2_search_p a o mb c S R : resting a o mb S -> held_call (with_own hs R) c ->
  safe2 hs (search_p mb c) S R (fun r S' R' => R' = R /\ resting a o (snd r) S' /\ answers a o c (fst r)).
Proof. intros Hr Hc. apply (safe_safe2 _ _ _ (fun r S' => resting a o (snd r) S' /\ answers a o c (fst r))). apply safe_search_p; assumption. Qed.

Lemma answers_result a o g b cand rs r : answers a o (MkCall g b cand rs) r -> result_of a o (bl_extended b) (bl_string b) cand rs r.
Proof. exact (fun H => H). Qed.

Definition strings (cur : option bloan) : option (bool * str) := option_map (fun b => (bl_extended b, bl_string b)) cur.

(** A new metric in place of the old one *)
Lemma safe2_renew_metric_p k S R (Post : bowned -> slab -> own -> Prop) : v_addr (mb_slab (bo_metric k)) = v_addr (fst S) -> v_tag (mb_slab (bo_metric k)) = v_tag (fst S) ->
  (forall mb S', resting (bo_algo k) default_options mb S' -> Post (MkBOwned (bo_algo k) default_options mb) S' R) ->
  safe2 hs (renew_metric_p k) S R Post.
Proof.
  intros EA ET HP. unfold renew_metric_p. cbn [safe2]. intros mem V. destruct (view2_parts _ _ _ V) as (H1 & H2 & H3 & H4 & H5 & H6).
  unfold metric_new_b, metric_drop_b. pose proof (vec_new_ok _ (bm_chars mem) (slab_of (metric_new (bo_algo k)))) as N.
  destruct (vec_new (bm_chars mem) (slab_of (metric_new (bo_algo k)))) as [v h]. destruct N as (N1 & N2 & N3). cbn [set_chars bm_chars].
  pose proof (N3 _ _ H4) as B4. rewrite <- EA in B4. rewrite <- ET in H5. destruct (vec_drop_ok _ _ _ _ B4 H5) as (h' & E & U). rewrite E. cbn [bind].
  assert (O : forall b x, b <> v_addr (fst S) -> buf (bm_chars mem) b x -> buf h' b x /\ b <> v_addr v).
  { intros b x Hb B. split; [|apply buf_lt in B; lia]. apply N3 in B. unfold buf. rewrite U, nth_error_upd.
    destruct (Nat.eqb_spec b (v_addr (mb_slab (bo_metric k)))); [congruence|exact B]. }
  set (S' := (v, fresh (v_tag v) (slab_of (metric_new (bo_algo k))))).
  exists (MkBOwned (bo_algo k) default_options (MkMetricB v (with_slab (metric_new (bo_algo k)) []))), (set_chars mem h'), S', R.
  split; [reflexivity|]. split; [|split].
  - assert (G : forall p l L D, live mem p l L D -> v_addr (pb_chars p) <> v_addr (fst S) -> live (set_chars mem h') p l L D /\ v_addr (pb_chars p) <> v_addr v).
    { intros p l L D ((J1 & J1') & J2) Hne. destruct (O _ _ Hne J1) as [J3 J4]. split; [|exact J4]. split; [split; assumption|exact J2]. }
    unfold S'. apply view2_of; cbn [fst snd set_chars bm_chars].
    + intros p l L D H. destruct (H1 _ _ _ _ H) as (J1 & J2 & J3). destruct (G _ _ _ _ J1 J2) as [J4 J5]. auto.
    + apply (G _ _ _ _ H2 H3).
    + apply (G _ _ _ _ H2 H3).
    + unfold buf. rewrite U, nth_error_upd. apply buf_lt in H4. destruct (Nat.eqb_spec (v_addr v) (v_addr (mb_slab (bo_metric k)))); [lia|exact N2].
    + apply fresh_base.
    + exact H6.
  - apply others_frame. exact O.
  - eexists. split; [reflexivity|]. apply HP. exists (metric_new (bo_algo k)). cbn [S' fst snd]. split; [reflexivity|]. split; [apply fresh_values|constructor].
Qed.

(** A new parser in place of the old one *)
Lemma safe2_renew_parser_p S R (Post : parser_b -> slab -> own -> Prop) : (forall R', Post (ow_p R') S R') -> safe2 hs (renew_parser_p (ow_p R)) S R Post.
Proof.
  intros HP. unfold renew_parser_p. cbn [safe2]. intros mem V. destruct (view2_parts _ _ _ V) as (H1 & H2 & H3 & H4 & H5 & H6).
  pose proof (live_new mem (repeat 0%N 64) (repeat default_pattern_b 64) (repeat empty_bref 64)) as N. unfold parser_new_b.
  destruct (vec_new (bm_chars mem) (repeat 0%N 64)) as [cs hc], (vec_new (bm_patterns mem) (repeat default_pattern_b 64)) as [pp hpp],
    (vec_new (bm_conditions mem) (repeat empty_bref 64)) as [ds hd]. destruct N as (N1 & N2 & N3).
  destruct (N2 _ _ _ _ H2) as [L2 Ap]. destruct (parser_drop_b_ok _ _ _ _ _ L2) as (mem' & E & F1 & F2). rewrite E. cbn [bind].
  set (R' := MkOwn (MkParserB cs pp ds) (fresh (v_tag cs) (repeat 0%N 64)) (fresh (v_tag pp) (repeat default_pattern_b 64)) (fresh (v_tag ds) (repeat empty_bref 64))).
  assert (G1 : forall p l L D, live mem p l L D -> apart p (ow_p R) -> live mem' p l L D /\ apart p (ow_p R')).
  { intros p l L D J1 J2. destruct (N2 _ _ _ _ J1) as [J3 J4]. split; [apply F1; assumption|exact J4]. }
  assert (G2 : forall b x, b <> v_addr (pb_chars (ow_p R)) -> buf (bm_chars mem) b x -> buf (bm_chars mem') b x /\ b <> v_addr (pb_chars (ow_p R'))).
  { intros b x Hb B. destruct (N3 _ _ B) as [J1 J2]. split; [apply F2; assumption|exact J2]. }
  exists (ow_p R'), mem', S, R'. split; [reflexivity|]. destruct (G2 _ _ (fun X => H3 (eq_sym X)) H4) as [B' NB]. split; [|split].
  - apply view2_of; auto.
    + intros p l L D H. destruct (H1 _ _ _ _ H) as (J1 & J2 & J3). destruct (G1 _ _ _ _ J1 J3) as [J4 J5]. auto.
    + apply F1; [|exact N1]. apply apart_sym. exact Ap.
  - split.
    + intros p l L D J1 J2 J3. destruct (G1 _ _ _ _ J1 J2) as [J4 J5]. auto.
    + intros b x Hb Hb' B. destruct (G2 _ _ Hb' B) as [J4 J5]. auto.
  - eexists. split; [reflexivity|]. apply (HP R').
Qed.

(** What a thread must end with *)
Definition at_rest (k : bowned) (S : slab) : Prop := resting (bo_algo k) (bo_options k) (bo_metric k) S.

Definition wgoal (k : bowned) (j : nat) (cur : option bloan) (ws : list work) (r : wresult) (S : slab) (R : own) : Prop :=
  at_rest (wr_metric r) S /\ bo_algo (wr_metric r) = bo_algo k /\ bo_options (wr_metric r) = options_left (bo_options k) ws
  /\ ow_p R = wr_parser r /\ cur_ok j R (wr_loan r)
  /\ results (bo_algo k) (bo_options k) (strings cur) ws (wr_out r).

Lemma safe2_worker_p j ls ws : (forall b, In b ls -> held hs (bl_query b) (wanted (bl_extended b) (bl_string b))) ->
  forall k cur S R, at_rest k S -> cur_ok j R cur -> allowed ls (match cur with Some _ => true | None => false end) ws ->
  safe2 hs (worker_p j k (ow_p R) cur ws) S R (wgoal k j cur ws).
Proof.
  intros Hls. induction ws as [|[g1 g2 g3 extended s|g query cand rs|x| |] ws IH]; intros k cur S R Hr Hc Ha; cbn [worker_p allowed] in *.
  - cbn [safe2]. eexists. split; [reflexivity|]. unfold wgoal. cbn [wr_metric wr_parser wr_loan wr_out]. split; [exact Hr|]. split; [reflexivity|].
    split; [reflexivity|]. split; [reflexivity|]. split; [exact Hc|]. constructor.
  - destruct Ha as [Hs Ha]. apply safe2_pbind, safe2_parse_p; [exact Hs|]. intros b p R' <- Hb He Es.
    eapply safe2_imp; [|apply (IH k (Some b) S R' Hr Hb Ha)]. intros r S' R'' (G1 & G1' & G1'' & G2 & G3 & G4). split; [exact G1|]. split; [exact G1'|]. split; [exact G1''|].
    split; [exact G2|]. split; [exact G3|]. constructor. cbn [strings option_map] in G4. rewrite He, Es in G4. exact G4.
  - assert (X : exists b, match query with Some b => Some b | None => cur end = Some b
        /\ held_call (with_own hs R) (MkCall g b cand rs)
        /\ allowed ls (match cur with Some _ => true | None => false end) ws
        /\ forall r out, result_of (bo_algo k) (bo_options k) (bl_extended b) (bl_string b) cand rs r ->
             results (bo_algo k) (bo_options k) (strings cur) ws out ->
             results (bo_algo k) (bo_options k) (strings cur) (WSearch g query cand rs :: ws) (r :: out)).
    { destruct query as [b|].
      - destruct Ha as [Hin Ha]. exists b. split; [reflexivity|]. split; [|split; [exact Ha|]].
        + destruct (Hls _ Hin) as (p & l & L & D & H & Rd). exists p, l, L, D. split; [left; exact H|exact Rd].
        + intros r out H1 H2. constructor; assumption.
      - destruct Ha as [Hp Ha]. destruct cur as [b|]; [|discriminate]. destruct Hc as [_ Hc]. exists b. split; [reflexivity|]. split; [|split; [exact Ha|]].
        + exists (ow_p R), (ow_l R), (ow_L R), (ow_D R). split; [right; destruct R; reflexivity|exact Hc].
        + intros r out H1 H2. cbn [strings option_map] in *. constructor; assumption. }
    destruct X as (b & -> & Hb & Ha' & Hres). apply safe2_pbind. eapply safe2_imp; [|apply (safe2_search_p _ _ _ _ _ _ Hr Hb)].
    intros [[d new] mb1] S1 R1 (-> & H1 & H2). cbn [fst snd] in *. apply safe2_pbind.
    eapply safe2_imp; [|apply (IH (MkBOwned (bo_algo k) (bo_options k) mb1) cur S1 R H1 Hc Ha')].
    intros r S2 R2 (G1 & G1' & G1'' & G2 & G3 & G4). cbn [safe2]. eexists. split; [reflexivity|]. unfold wgoal. cbn [wr_metric wr_parser wr_loan wr_out] in *.
    split; [exact G1|]. split; [exact G1'|]. split; [exact G1''|]. split; [exact G2|]. split; [exact G3|].
    apply Hres; [|exact G4]. apply (answers_result _ _ g). exact H2.
  - assert (Hr' : at_rest (MkBOwned (bo_algo k) (after_setting (bo_options k) x) (MkMetricB (mb_slab (bo_metric k)) (set_option (mb_rest (bo_metric k)) x))) S).
    { destruct Hr as (m & Em & El & Hm). exists (set_option m x). cbn [bo_metric bo_algo bo_options]. rewrite Em. cbn [mb_slab mb_rest]. split; [|split].
      - rewrite MemoryMetricProofs.set_option_slab. reflexivity.
      - rewrite El. destruct m as [[]|[]], x; reflexivity.
      - destruct x; cbn [after_setting set_option]; [apply mr_case|apply mr_norm|apply mr_scheme]; exact Hm. }
    eapply safe2_imp; [|apply (IH _ cur S R Hr' Hc Ha)]. intros r S' R'' (G1 & G1' & G1'' & G2 & G3 & G4). cbn [bo_algo bo_options] in *.
    split; [exact G1|]. split; [exact G1'|]. split; [exact G1''|]. split; [exact G2|]. split; [exact G3|]. constructor. exact G4.
  - apply safe2_pbind. destruct Hr as (m & Em & _). apply safe2_renew_metric_p; [rewrite Em; reflexivity|rewrite Em; reflexivity|].
    intros mb S' Hr'. eapply safe2_imp; [|apply (IH (MkBOwned (bo_algo k) default_options mb) cur S' R Hr' Hc Ha)].
    intros r S2 R'' (G1 & G1' & G1'' & G2 & G3 & G4). cbn [bo_algo bo_options] in *.
    split; [exact G1|]. split; [exact G1'|]. split; [exact G1''|]. split; [exact G2|]. split; [exact G3|]. constructor. exact G4.
  - apply safe2_pbind, safe2_renew_parser_p. intros R'. eapply safe2_imp; [|apply (IH k None S R' Hr I Ha)].
    intros r S2 R'' (G1 & G1' & G1'' & G2 & G3 & G4).
    split; [exact G1|]. split; [exact G1'|]. split; [exact G1''|]. split; [exact G2|]. split; [exact G3|]. constructor. exact G4.
Qed.

End Safe2.

(** ** All threads *)
Section Workers.
Context {UC : unicode}.
Variables (K : holding) (ms : list (option bowned)) (jobs : list job).
Hypothesis NDm : NoDup (map jb_metric jobs).

(** What holds while the threads run; [V i] and [L i] are the slab of metric [i] and its elements, [R n] the parser of thread [n] *)
Record winv (V : nat -> bvec) (L : nat -> cells char) (R : nat -> own) (mem : bmemory) (ts : list (prog wresult)) : Prop := MkWinv {
  wi_slab : forall i k, nth_error ms i = Some (Some k) -> buf (bm_chars mem) (v_addr (V i)) (L i) /\ base (v_tag (V i)) (L i);
  wi_slabs : forall i j k k', i <> j -> nth_error ms i = Some (Some k) -> nth_error ms j = Some (Some k') -> v_addr (V i) <> v_addr (V j);
  wi_held : forall p l M D, K p l M D -> live mem p l M D;
  wi_held_slab : forall p l M D i k, K p l M D -> nth_error ms i = Some (Some k) -> v_addr (pb_chars p) <> v_addr (V i);
  wi_held_own : forall p l M D n, K p l M D -> n < length jobs -> apart p (ow_p (R n));
  wi_own : forall n, n < length jobs -> olive mem (R n) /\ 64 <= length (ow_l (R n));
  wi_own_slab : forall n i k, n < length jobs -> nth_error ms i = Some (Some k) -> v_addr (pb_chars (ow_p (R n))) <> v_addr (V i);
  wi_own_own : forall n n', n <> n' -> n < length jobs -> n' < length jobs -> apart (ow_p (R n)) (ow_p (R n'));
  wi_length : length ts = length jobs;
  wi_threads : forall n jb t, nth_error jobs n = Some jb -> nth_error ts n = Some t ->
    exists k, nth_error ms (jb_metric jb) = Some (Some k)
      /\ safe2 K t (V (jb_metric jb), L (jb_metric jb)) (R n) (wgoal k (jb_parser jb) None (jb_works jb));
  wi_idle : forall i k, nth_error ms i = Some (Some k) -> ~ In i (map jb_metric jobs) -> resting (bo_algo k) (bo_options k) (bo_metric k) (V i, L i)
}.

Lemma metrics_apart n n' jb jb' : nth_error jobs n = Some jb -> nth_error jobs n' = Some jb' -> jb_metric jb = jb_metric jb' -> n = n'.
Proof.
  intros H H' E. apply (map_nth_error jb_metric) in H, H'. eapply (proj1 (NoDup_nth_error _) NDm).
  - apply nth_error_Some. congruence.
  - congruence.
Qed.

Lemma winv_sched V L R st st' : winv V L R (fst st) (snd st) -> sched st st' -> exists V' L' R', winv V' L' R' (fst st') (snd st').
Proof.
  intros [T1 T2 T3 T4 T5 T6 T7 T8 T9 T10 T11] H. destruct H as [mem ts n t mem' t' Hn Hd E]. cbn [fst snd] in *.
  assert (Hlt : n < length ts) by (apply nth_error_Some; congruence).
  assert (Hj : exists jb, nth_error jobs n = Some jb).
  { destruct (nth_error jobs n) as [jb|] eqn:Hj; [eauto|]. apply nth_error_None in Hj. lia. }
  destruct Hj as (jb & Hj). destruct (T10 _ _ _ Hj Hn) as (k & Hk & Hs). set (i := jb_metric jb) in *. rewrite T9 in Hlt.
  destruct t as [r|B op kt]; [discriminate|]. cbn [safe2] in Hs.
  assert (V0 : view2 K mem (V i, L i) (R n)).
  { destruct (T1 _ _ Hk), (T6 _ Hlt). apply view2_of; cbn [fst snd]; auto.
    - intros p l M D H'. split; [auto|]. split; [eapply T4; eassumption|eapply T5; eassumption].
    - eapply T7; eassumption. }
  destruct (Hs _ V0) as (y & m & S' & R' & Eo & V' & [F1 F2] & G). cbn [fst] in F1, F2.
  cbn [thread_step] in E. rewrite Eo in E. injection E as <- <-.
  destruct (view2_parts _ _ _ _ V') as (W1 & W2 & W3 & W4 & W5 & W6).
  exists (fun j => if j =? i then fst S' else V j), (fun j => if j =? i then snd S' else L j), (fun n' => if n' =? n then R' else R n').
  assert (Eta : (fst S', snd S') = S') by (destruct S'; reflexivity).
  assert (FS : forall j k', j <> i -> nth_error ms j = Some (Some k') -> buf (bm_chars m) (v_addr (V j)) (L j)
      /\ v_addr (V j) <> v_addr (fst S') /\ v_addr (V j) <> v_addr (pb_chars (ow_p R'))).
  { intros j k' Hji Hj'. destruct (T1 _ _ Hj') as [B' _]. apply F2; [eapply T2; eassumption| |exact B']. intros X. symmetry in X. revert X. eapply T7; eassumption. }
  assert (FR : forall n', n' <> n -> n' < length jobs -> olive m (R n') /\ apart (ow_p (R n')) (ow_p R') /\ v_addr (pb_chars (ow_p (R n'))) <> v_addr (fst S')).
  { intros n' Hnn Hl. destruct (T6 _ Hl) as [Lv _]. apply F1; [exact Lv| |]; eauto. }
  constructor.
  - intros j k' Hj'. destruct (Nat.eqb_spec j i) as [->|Hji]; [auto|]. split; [apply (FS _ _ Hji Hj')|apply (T1 _ _ Hj')].
  - intros j1 j2 k1 k2 Hne H1 H2. destruct (Nat.eqb_spec j1 i) as [->|N1]; destruct (Nat.eqb_spec j2 i) as [->|N2].
    + contradiction.
    + destruct (FS _ _ N2 H2) as (_ & X & _). congruence.
    + apply (FS _ _ N1 H1).
    + eapply T2; eassumption.
  - intros p l M D H. apply (W1 _ _ _ _ H).
  - intros p l M D j k' H Hj'. destruct (Nat.eqb_spec j i) as [->|Hji]; [apply (W1 _ _ _ _ H)|eapply T4; eassumption].
  - intros p l M D n' H Hl. destruct (Nat.eqb_spec n' n) as [->|Hnn]; [apply (W1 _ _ _ _ H)|eapply T5; eassumption].
  - intros n' Hl. destruct (Nat.eqb_spec n' n) as [->|Hnn]; [auto|]. split; [apply (FR _ Hnn Hl)|apply (T6 _ Hl)].
  - intros n' j k' Hl Hj'. destruct (Nat.eqb_spec n' n) as [->|Hnn]; destruct (Nat.eqb_spec j i) as [->|Hji].
    + exact W3.
    + destruct (FS _ _ Hji Hj') as (_ & _ & X). congruence.
    + apply (FR _ Hnn Hl).
    + eapply T7; eassumption.
  - intros n1 n2 Hne H1 H2. destruct (Nat.eqb_spec n1 n) as [->|N1]; destruct (Nat.eqb_spec n2 n) as [->|N2].
    + contradiction.
    + apply apart_sym. apply (FR _ N2 H2).
    + apply (FR _ N1 H1).
    + apply T8; assumption.
  - rewrite length_upd. exact T9.
  - intros n' jb' t' H1 H2. rewrite nth_error_upd in H2. destruct (Nat.eqb_spec n' n) as [->|Hnn].
    + rewrite Hj in H1. injection H1 as <-. rewrite <- T9 in Hlt. apply Nat.ltb_lt in Hlt. rewrite Hlt in H2. cbn [andb] in H2. injection H2 as <-.
      fold i. rewrite Nat.eqb_refl, Eta. exists k. auto.
    + cbn [andb] in H2. destruct (Nat.eqb_spec (jb_metric jb') i) as [Hii|Hii].
      * exfalso. apply Hnn. eapply metrics_apart; eassumption.
      * apply (T10 _ _ _ H1 H2).
  - intros j k' Hj' Hni. destruct (Nat.eqb_spec j i) as [->|Hji]; [|apply T11; assumption].
    exfalso. apply Hni. apply nth_error_In in Hj. apply (in_map jb_metric) in Hj. exact Hj.
Qed.

Lemma winv_schedule V L R st st' : winv V L R (fst st) (snd st) -> schedule st st' -> exists V' L' R', winv V' L' R' (fst st') (snd st').
Proof.
  intros T H. revert V L R T. induction H as [st|st1 st2 st3 H IH H']; intros V L R T; [eauto|].
  destruct (IH _ _ _ T) as (V1 & L1 & R1 & T1). eapply winv_sched; eassumption.
Qed.

Lemma winv_done V L R mem ts n jb r : winv V L R mem ts -> nth_error jobs n = Some jb -> nth_error ts n = Some (Done r) ->
  exists k x, nth_error ms (jb_metric jb) = Some (Some k) /\ r = Ok x
    /\ wgoal k (jb_parser jb) None (jb_works jb) x (V (jb_metric jb), L (jb_metric jb)) (R n).
Proof.
  intros T Hj Hn. destruct (wi_threads _ _ _ _ _ T _ _ _ Hj Hn) as (k & Hk & x & E & G). exists k, x. auto.
Qed.

End Workers.

(** *** What the threads give back *)
Lemma back_metrics_other i rs : forall jobs ms, ~ In i (map jb_metric jobs) -> nth_error (back_metrics ms jobs rs) i = nth_error ms i.
Proof.
  induction rs as [|r rs IH]; intros [|jb jobs] ms H; cbn [back_metrics]; auto. cbn [map In] in H.
  rewrite IH by auto. rewrite nth_error_upd. destruct (Nat.eqb_spec i (jb_metric jb)); [exfalso; auto|reflexivity].
Qed.

Lemma back_metrics_at rs : forall jobs ms n jb r k, NoDup (map jb_metric jobs) ->
  nth_error jobs n = Some jb -> nth_error rs n = Some r -> nth_error ms (jb_metric jb) = Some (Some k) ->
  nth_error (back_metrics ms jobs rs) (jb_metric jb) = Some (Some (wr_metric r)).
Proof.
  induction rs as [|r' rs IH]; intros [|jb' jobs] ms [|n] jb r k ND Hj Hr Hk; cbn [nth_error] in *; try discriminate.
  - injection Hj as ->. injection Hr as ->. cbn [back_metrics]. cbn [map] in ND. inversion ND; subst. rewrite back_metrics_other by assumption.
    rewrite nth_error_upd, Nat.eqb_refl. assert (Hlt : jb_metric jb < length ms) by (apply nth_error_Some; congruence). apply Nat.ltb_lt in Hlt. rewrite Hlt. reflexivity.
  - cbn [back_metrics]. cbn [map] in ND. inversion ND as [|? ? N1 N2]; subst. eapply IH; try eassumption.
    assert (jb_metric jb <> jb_metric jb'). { intros X. apply N1. rewrite <- X. apply in_map. eapply nth_error_In; exact Hj. }
    rewrite nth_error_upd. destruct (Nat.eqb_spec (jb_metric jb) (jb_metric jb')); [contradiction|exact Hk].
Qed.

Lemma back_parsers_other i rs : forall jobs ps, ~ In i (map jb_parser jobs) -> nth_error (back_parsers ps jobs rs) i = nth_error ps i.
Proof.
  induction rs as [|r rs IH]; intros [|jb jobs] ps H; cbn [back_parsers]; auto. cbn [map In] in H.
  rewrite IH by auto. rewrite nth_error_upd. destruct (Nat.eqb_spec i (jb_parser jb)); [exfalso; auto|reflexivity].
Qed.

Lemma back_parsers_at rs : forall jobs ps n jb r, NoDup (map jb_parser jobs) ->
  nth_error jobs n = Some jb -> nth_error rs n = Some r -> jb_parser jb < length ps ->
  nth_error (back_parsers ps jobs rs) (jb_parser jb) = Some (Some (wr_parser r)).
Proof.
  induction rs as [|r' rs IH]; intros [|jb' jobs] ps [|n] jb r ND Hj Hr Hl; cbn [nth_error] in *; try discriminate.
  - injection Hj as ->. injection Hr as ->. cbn [back_parsers]. cbn [map] in ND. inversion ND; subst. rewrite back_parsers_other by assumption.
    rewrite nth_error_upd, Nat.eqb_refl. apply Nat.ltb_lt in Hl. rewrite Hl. reflexivity.
  - cbn [back_parsers]. cbn [map] in ND. inversion ND as [|? ? N1 N2]; subst. eapply IH; try eassumption. rewrite length_upd. exact Hl.
Qed.

Lemma free_loans_in jobs ls b : In b (free_loans jobs ls) <-> In b ls /\ ~ In (bl_parser b) (map jb_parser jobs).
Proof.
  unfold free_loans. rewrite filter_In, negb_true_iff. split; intros [H1 H2]; (split; [exact H1|]).
  - intros Hin. assert (X : existsb (Nat.eqb (bl_parser b)) (map jb_parser jobs) = true); [|congruence].
    apply existsb_exists. exists (bl_parser b). split; [exact Hin|apply Nat.eqb_refl].
  - destruct (existsb (Nat.eqb (bl_parser b)) (map jb_parser jobs)) eqn:E; [|reflexivity]. apply existsb_exists in E as (x & Hx & Ex).
    apply Nat.eqb_eq in Ex. subst x. contradiction.
Qed.

Lemma forall2_len A B (Q : A -> B -> Prop) l l' : Forall2 Q l l' -> length l = length l'.
Proof. induction 1; cbn [length]; congruence. Qed.

(** ** Programs *)
Section Programs.
Context {UC : unicode}.

(** The parsers which no thread borrows *)
Definition unborrowed (jobs : list job) (ps : list (option parser_b)) (mem0 : bmemory) : holding := fun p l L D =>
  (exists j, ~ In j (map jb_parser jobs) /\ nth_error ps j = Some (Some p)) /\ live mem0 p l L D.

Lemma parsers_apart jobs n n' jb jb' : NoDup (map jb_parser jobs) -> nth_error jobs n = Some jb -> nth_error jobs n' = Some jb' -> n <> n' ->
  jb_parser jb <> jb_parser jb'.
Proof.
  intros ND H H' Hne E. apply Hne. apply (map_nth_error jb_parser) in H, H'. eapply (proj1 (NoDup_nth_error _) ND).
  - apply nth_error_Some. congruence.
  - congruence.
Qed.

Lemma winv_start g jobs ts : pinv g -> hired g jobs ts ->
  exists V L R, winv (unborrowed jobs (bw_parsers (bp_world g)) (bw_mem (bp_world g))) (bp_metrics g) jobs V L R (bw_mem (bp_world g)) ts.
Proof.
  intros [I1 I2 I3 I4] (ND1 & ND2 & F). destruct g as [[mem ps ls] ms]. cbn [bp_world bp_metrics bw_parsers bw_mem bw_loans] in *.
  set (V := fun i => match nth_error ms i with Some (Some k) => mb_slab (bo_metric k) | _ => MkVec 0 0 end).
  set (L := fun i => match nth_error (hp (bm_chars mem)) (v_addr (V i)) with Some (Some l) => l | _ => [] end).
  set (get := fun {A} (h : bheap A) (v : bvec) => match nth_error (hp h) (v_addr v) with Some (Some l) => l | _ => [] end).
  set (R := fun n => match nth_error jobs n with
    | Some jb => match nth_error ps (jb_parser jb) with
       | Some (Some p) => MkOwn p (get _ (bm_chars mem) (pb_chars p)) (get _ (bm_patterns mem) (pb_patterns p)) (get _ (bm_conditions mem) (pb_conditions p))
       | _ => MkOwn (MkParserB (MkVec 0 0) (MkVec 0 0) (MkVec 0 0)) [] [] []
       end
    | None => MkOwn (MkParserB (MkVec 0 0) (MkVec 0 0) (MkVec 0 0)) [] [] []
    end).
  assert (W : forall i k, nth_error ms i = Some (Some k) -> V i = mb_slab (bo_metric k)
    /\ buf (bm_chars mem) (v_addr (V i)) (L i) /\ base (v_tag (V i)) (L i) /\ resting (bo_algo k) (bo_options k) (bo_metric k) (V i, L i)).
  { intros i k Hi. assert (EV : V i = mb_slab (bo_metric k)) by (unfold V; rewrite Hi; reflexivity). split; [exact EV|].
    destruct (I2 _ _ Hi) as (m & (lc & B & Fb & E) & Er & Hm).
    assert (EL : L i = lc) by (unfold L; rewrite EV; unfold buf in B; rewrite B; reflexivity). rewrite EL, EV. split; [exact B|]. split; [exact Fb|].
    exists m. cbn [fst snd]. split; [|split; [exact E|exact Hm]]. rewrite <- Er. destruct (bo_metric k); reflexivity. }
  assert (WR : forall n, n < length jobs -> exists jb p, nth_error jobs n = Some jb /\ nth_error ps (jb_parser jb) = Some (Some p)
    /\ ow_p (R n) = p /\ olive mem (R n) /\ 64 <= length (ow_l (R n))).
  { intros n Hl. destruct (nth_error jobs n) as [jb|] eqn:Hj; [|apply nth_error_None in Hj; lia].
    destruct (nth_error ts n) as [t|] eqn:Ht.
    2:{ apply nth_error_None in Ht. apply forall2_len in F. lia. }
    destruct (forall2_nth _ _ _ _ _ F _ _ _ Hj Ht) as (k & p & _ & Hp & _). exists jb, p. split; [reflexivity|]. split; [exact Hp|].
    destruct (iv_live _ I1 _ _ Hp) as (l & M & D & Lv & H64). cbn [bw_mem] in Lv. pose proof Lv as ((B1 & _) & (B2 & _) & (B3 & _)). unfold buf in B1, B2, B3.
    assert (ER : R n = MkOwn p l M D).
    { unfold R, get. rewrite Hj, Hp, B1, B2, B3. reflexivity. }
    rewrite ER. cbn [ow_p ow_l ow_L ow_D]. auto. }
  exists V, L, R. constructor.
  - intros i k Hi. destruct (W _ _ Hi) as (_ & B & Fb & _). auto.
  - intros i j k k' Hij Hi Hj. destruct (W _ _ Hi) as (-> & _), (W _ _ Hj) as (-> & _). eapply I4; eassumption.
  - intros p l M D [_ H]. exact H.
  - intros p l M D i k [(j & _ & Hj) _] Hi. destruct (W _ _ Hi) as (-> & _). eapply I3; eassumption.
  - intros p l M D n [(j & Hnj & Hj) _] Hl. destruct (WR _ Hl) as (jb & p' & Hjb & Hp & -> & _).
    assert (Hne : j <> jb_parser jb). { intros ->. apply Hnj. apply in_map. eapply nth_error_In; exact Hjb. }
    apply (iv_apart _ I1 _ _ _ _ Hne Hj Hp).
  - intros n Hl. destruct (WR _ Hl) as (jb & p' & Hjb & Hp & _ & H). exact H.
  - intros n i k Hl Hi. destruct (WR _ Hl) as (jb & p' & Hjb & Hp & -> & _). destruct (W _ _ Hi) as (-> & _). eapply I3; eassumption.
  - intros n n' Hne Hl Hl'. destruct (WR _ Hl) as (jb & p & Hjb & Hp & -> & _). destruct (WR _ Hl') as (jb' & p' & Hjb' & Hp' & -> & _).
    apply (iv_apart _ I1 _ _ _ _ (parsers_apart _ _ _ _ _ ND2 Hjb Hjb' Hne) Hp Hp').
  - symmetry. eapply forall2_len; exact F.
  - intros n jb t Hj Ht. destruct (forall2_nth _ _ _ _ _ F _ _ _ Hj Ht) as (k & p & Hk & Hp & Ha & ->).
    assert (Hl : n < length jobs) by (apply nth_error_Some; congruence).
    destruct (WR _ Hl) as (jb' & p' & Hjb & Hp' & E & _). rewrite Hj in Hjb. injection Hjb as <-. rewrite Hp in Hp'. injection Hp' as <-.
    exists k. split; [exact Hk|]. rewrite <- E. eapply safe2_worker_p; [|apply (W _ _ Hk)|exact I|exact Ha].
    intros b Hb. apply free_loans_in in Hb as [Hb Hnb]. destruct (iv_loans _ I1 _ Hb) as (q & l & M & D & Hq & X & Rd).
    exists q, l, M, D. split; [|exact Rd]. split; [eauto|exact X].
  - intros i k Hi _. apply (W _ _ Hi).
Qed.

Lemma pinv_workers g jobs ts mem rs : pinv g -> hired g jobs ts -> schedule (bw_mem (bp_world g), ts) (mem, map (fun r => Done (Ok r)) rs) ->
  pinv (rejoined g jobs mem rs).
Proof.
  intros I Sp Sc. destruct (winv_start _ _ _ I Sp) as (V0 & L0 & R0 & T0). destruct Sp as (ND1 & ND2 & Fh).
  destruct (winv_schedule _ _ _ ND1 _ _ _ (_, _) (_, _) T0 Sc) as (V & L & R & T). cbn [fst snd] in T. clear T0 V0 L0 R0 Sc.
  destruct g as [[mem0 ps ls] ms]. unfold rejoined. cbn [bp_world bp_metrics bw_parsers bw_mem bw_loans] in *.
  pose proof (wi_length _ _ _ _ _ _ _ _ T) as Hlen. rewrite map_length in Hlen.
  assert (Hjob : forall n jb, nth_error jobs n = Some jb -> exists r k p, nth_error rs n = Some r /\ nth_error ms (jb_metric jb) = Some (Some k)
    /\ nth_error ps (jb_parser jb) = Some (Some p)
    /\ wgoal k (jb_parser jb) None (jb_works jb) r (V (jb_metric jb), L (jb_metric jb)) (R n)).
  { intros n jb Hn. assert (Hl : n < length jobs) by (apply nth_error_Some; congruence).
    destruct (nth_error rs n) as [r|] eqn:Hr; [|apply nth_error_None in Hr; lia].
    pose proof (map_nth_error (fun r => Done (Ok r)) _ _ Hr) as Ht. destruct (winv_done _ _ _ _ _ _ _ _ _ _ _ T Hn Ht) as (k & x & Hk & Ex & G).
    injection Ex as <-. destruct (nth_error ts n) as [t|] eqn:Hts; [|apply nth_error_None in Hts; apply forall2_len in Fh; lia].
    destruct (forall2_nth _ _ _ _ _ Fh _ _ _ Hn Hts) as (_ & p & _ & Hp & _). exists r, k, p. auto. }
  assert (W : forall i k, nth_error (back_metrics ms jobs rs) i = Some (Some k) -> exists k0, nth_error ms i = Some (Some k0)
    /\ resting (bo_algo k) (bo_options k) (bo_metric k) (V i, L i)).
  { intros i k Hi. destruct (in_dec Nat.eq_dec i (map jb_metric jobs)) as [Hin|Hni].
    - apply in_map_iff in Hin as (jb & E & Hin). apply In_nth_error in Hin as (n & Hn). destruct (Hjob _ _ Hn) as (r & k0 & p & Hr & Hk0 & _ & G & _).
      rewrite E in *. rewrite <- E in Hi, Hk0. rewrite (back_metrics_at _ _ _ _ _ _ _ ND1 Hn Hr Hk0) in Hi. injection Hi as <-.
      rewrite E in Hk0. exists k0. auto.
    - rewrite back_metrics_other in Hi by assumption. exists k. split; [exact Hi|]. apply (wi_idle _ _ _ _ _ _ _ _ T); assumption. }
  assert (P : forall j p, nth_error (back_parsers ps jobs rs) j = Some (Some p) ->
    (exists n jb r, nth_error jobs n = Some jb /\ jb_parser jb = j /\ nth_error rs n = Some r /\ n < length jobs /\ p = ow_p (R n))
    \/ (~ In j (map jb_parser jobs) /\ nth_error ps j = Some (Some p) /\ exists l M D, 64 <= length l /\ unborrowed jobs ps mem0 p l M D)).
  { intros j p Hj. destruct (in_dec Nat.eq_dec j (map jb_parser jobs)) as [Hin|Hni].
    - left. apply in_map_iff in Hin as (jb & E & Hin). apply In_nth_error in Hin as (n & Hn). destruct (Hjob _ _ Hn) as (r & k0 & p0 & Hr & _ & Hp & _ & _ & _ & Ep & _).
      assert (Hl : jb_parser jb < length ps) by (apply nth_error_Some; congruence).
      rewrite <- E, (back_parsers_at _ _ _ _ _ _ ND2 Hn Hr Hl) in Hj. exists n, jb, r. split; [exact Hn|]. split; [exact E|]. split; [exact Hr|].
      split; [apply nth_error_Some; congruence|]. congruence.
    - right. rewrite back_parsers_other in Hj by assumption. split; [exact Hni|]. split; [exact Hj|].
      destruct (iv_live _ (pv_inv _ I) _ _ Hj) as (l & M & D & X & Hl). exists l, M, D. split; [exact Hl|]. split; [eauto|exact X]. }
  constructor; cbn [bp_world bp_metrics bw_mem bw_parsers].
  - constructor; cbn [bw_mem bw_parsers bw_loans].
    + intros j p Hj. destruct (P _ _ Hj) as [(n & jb & r & _ & _ & _ & Hl & ->)|(_ & _ & l & M & D & Hl & X)].
      * destruct (wi_own _ _ _ _ _ _ _ _ T _ Hl) as [H1 H2]. eauto.
      * exists l, M, D. split; [|exact Hl]. apply (wi_held _ _ _ _ _ _ _ _ T); exact X.
    + intros i j p p' Hij Hi Hj.
      destruct (P _ _ Hi) as [(n & jb & r & Hn & E & _ & Hl & ->)|(Hni & Hpi & l & M & D & Hl & X)];
      destruct (P _ _ Hj) as [(n' & jb' & r' & Hn' & E' & _ & Hl' & ->)|(Hni' & Hpi' & l' & M' & D' & Hl' & X')].
      * apply (wi_own_own _ _ _ _ _ _ _ _ T); try assumption. intros ->. congruence.
      * apply apart_sym. apply (wi_held_own _ _ _ _ _ _ _ _ T _ _ _ _ _ X' Hl).
      * apply (wi_held_own _ _ _ _ _ _ _ _ T _ _ _ _ _ X Hl').
      * apply (iv_apart _ (pv_inv _ I) _ _ _ _ Hij Hpi Hpi').
    + intros b Hb. apply in_app_or in Hb as [Hb|Hb].
      * unfold back_loans in Hb. apply in_flat_map in Hb as (r & Hr & Hb). apply In_nth_error in Hr as (n & Hr).
        assert (Hl : n < length rs) by (apply nth_error_Some; congruence). rewrite Hlen in Hl.
        destruct (nth_error jobs n) as [jb|] eqn:Hn; [|apply nth_error_None in Hn; lia].
        destruct (Hjob _ _ Hn) as (r' & k0 & p0 & Hr' & _ & Hp & _ & _ & _ & Ep & Hc & _). rewrite Hr in Hr'. injection Hr' as <-.
        destruct (wr_loan r) as [b'|]; [|contradiction]. destruct Hb as [->|[]]. destruct Hc as [Ej Rd].
        assert (Hlp : jb_parser jb < length ps) by (apply nth_error_Some; congruence).
        exists (ow_p (R n)), (ow_l (R n)), (ow_L (R n)), (ow_D (R n)). split; [|split; [|exact Rd]].
        -- rewrite Ej, (back_parsers_at _ _ _ _ _ _ ND2 Hn Hr Hlp). congruence.
        -- apply (wi_own _ _ _ _ _ _ _ _ T _ Hl).
      * apply free_loans_in in Hb as [Hb Hnb]. destruct (iv_loans _ (pv_inv _ I) _ Hb) as (p & l & M & D & Hp & X & Rd). exists p, l, M, D.
        rewrite back_parsers_other by assumption. split; [exact Hp|]. split; [|exact Rd]. apply (wi_held _ _ _ _ _ _ _ _ T). split; [eauto|exact X].
  - intros i k Hi. destruct (W _ _ Hi) as (k0 & Hk0 & m & Em & El & Hm). cbn [fst snd] in *. exists m. rewrite Em. cbn [mb_slab mb_rest].
    destruct (wi_slab _ _ _ _ _ _ _ _ T _ _ Hk0) as [B F]. split; [|auto]. exists (L i). auto.
  - intros i k j p Hi Hj. destruct (W _ _ Hi) as (k0 & Hk0 & m & Em & El & Hm). rewrite Em. cbn [mb_slab fst].
    destruct (P _ _ Hj) as [(n & jb & r & _ & _ & _ & Hl & ->)|(_ & _ & l & M & D & Hl & X)].
    + apply (wi_own_slab _ _ _ _ _ _ _ _ T _ _ _ Hl Hk0).
    + apply (wi_held_slab _ _ _ _ _ _ _ _ T _ _ _ _ _ _ X Hk0).
  - intros i j k k' Hij Hi Hj. destruct (W _ _ Hi) as (k0 & Hk0 & m & Em & _). destruct (W _ _ Hj) as (k1 & Hk1 & m1 & Em1 & _).
    rewrite Em, Em1. cbn [mb_slab fst]. apply (wi_slabs _ _ _ _ _ _ _ _ T _ _ _ _ Hij Hk0 Hk1).
Qed.

Lemma pinv_wreached g : wprogram_reached g -> pinv g.
Proof.
  induction 1 as [|g g' _ IH H|g jobs ts mem rs _ IH Sp Sc].
  - apply pinv_reached. constructor.
  - eapply pinv_step; eassumption.
  - eapply pinv_workers; eassumption.
Qed.

End Programs.
