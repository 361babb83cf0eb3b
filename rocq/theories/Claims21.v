(** Proofs of C82 and C83: candidates equal to the text of the query. *)
From Coq Require Import Sorted.
From Verif Require Import Prelude Chars Normalize Utils Candidate MatchedRanges Query Parser Scoring
  Slab Fzf FzfV1 FzfV2 Api History
  Spec PreludeProofs CharsProofs NormalizeProofs CandidateProofs MatchedRangesProofs ParserProofs
  ScoreProofs ExactProofs ShapeProofs V1Proofs V2Tables V2Proofs V2Rows V2Fuzzy V2Facts ApiProofs AcceptProofs
  RangeProofs WordsProofs CongProofs FuzzyFacts Claims1 Claims2 Claims5 ExactChoice Claims8 Claims11.
Local Open Scope nat_scope.

(** ** The table *)

(** The most points of the columns up to [j]. *)
Fixpoint most (bonus : nat -> Z) (j : nat) : Z :=
  match j with 0 => bonus 0 | S i => Z.max (most bonus i) (bonus (S i)) end.

(** The points of the diagonal. *)
Fixpoint diag (bonus : nat -> Z) (j : nat) : Z :=
  match j with 0 => 16 + 2 * bonus 0 | S i => diag bonus i + 16 + most bonus (S i) end.

Section Most.
Variable bonus : nat -> Z.
Hypothesis Hb : forall j, (0 <= bonus j <= 10)%Z.
Hypothesis H0 : (7 <= bonus 0)%Z.
Notation most := (most bonus).
Notation diag := (diag bonus).

Lemma most_ge j : forall i, i <= j -> (bonus i <= most j)%Z.
Proof.
  induction j as [|j IH]; intros i Hi; cbn [Claims21.most]; [replace i with 0 by lia; lia|].
  destruct (Nat.eq_dec i (S j)) as [->|]; [lia|]. specialize (IH i ltac:(lia)). lia.
Qed.

Lemma most_bounds j : (7 <= most j <= 10)%Z.
Proof.
  split; [pose proof (most_ge j 0 ltac:(lia)); lia|]. induction j as [|j IH]; cbn [Claims21.most].
  - apply Hb.
  - pose proof (Hb (S j)). lia.
Qed.

Lemma diag_ge j : (30 + 23 * Z.of_nat j <= diag j)%Z.
Proof.
  induction j as [|j IH]; [cbn [Claims21.diag]; lia|]. change (diag (S j)) with (diag j + 16 + most (S j))%Z.
  pose proof (most_bounds (S j)). lia.
Qed.

Lemma diag_lt i j : i < j -> (diag i < diag j)%Z.
Proof.
  induction 1 as [|j _ IH]; [change (diag (S i)) with (diag i + 16 + most (S i))%Z; pose proof (most_bounds (S i)); lia|].
  change (diag (S j)) with (diag j + 16 + most (S j))%Z. pose proof (most_bounds (S j)). lia.
Qed.

End Most.

Section Table.
Variables (hit : nat -> nat -> bool) (bonus : nat -> Z) (first : nat -> nat) (h : nat).
Hypothesis Hb : forall j, (0 <= bonus j <= 10)%Z.
Hypothesis H7 : forall j, (bonus j <= 7 \/ 8 <= bonus j)%Z.
Hypothesis H0 : (7 <= bonus 0)%Z.
Hypothesis Hf : forall i, i < h -> first i = i /\ hit i i = true.
Notation stop := (h - 1).
Notation T := (table hit bonus first stop).
Notation cost := (step_cost hit first stop).
Notation back := (way_back hit bonus first stop h).
Notation most := (most bonus).
Notation diag := (diag bonus).

Local Definition most_ge' := most_ge bonus Hb.
Local Definition most_bounds' := most_bounds bonus Hb H0.
Local Definition diag_ge' := diag_ge bonus Hb H0.
Local Definition diag_lt' := diag_lt bonus Hb H0.

(** The diagonal. *)
Lemma T_diag i : i < h -> exists r, T i i = Cell (diag i) r /\ 0 < r <= S i /\ bonus (S i - r) = most i.
Proof.
  induction i as [|i IH]; intros Hi; destruct (Hf _ Hi) as [Ef Eh].
  - exists 1. rewrite T_hit0 by (auto; lia). split; [reflexivity|]. split; [lia|reflexivity].
  - destruct IH as (r & Er & Hr & Hm); [lia|].
    rewrite (T_hit i (S i)) by (auto; lia). cbv zeta. unfold pts_of, run_of.
    replace (S i - 1) with i by lia. rewrite Er. cbn [pts run].
    rewrite (T_before (S i) i) by lia. cbn [pts].
    pose proof (step_cost_bounds hit first stop (S i) (S i)) as Hc. set (k := cost (S i) (S i)) in *. clearbody k.
    assert (El : forall x, (0 <= x)%Z -> (x <? saturating_sub 0 k)%Z = false).
    { intros x Hx. apply Z.ltb_ge. unfold saturating_sub, I64_MIN. lia. }
    change (S (S i) - S r) with (S i - r). rewrite Hm.
    pose proof (diag_ge' i) as Hd. pose proof (most_bounds' i) as Hmb. pose proof (Hb (S i)) as HbS.
    assert (ED : (diag i + 16 + Z.max (most i) (bonus (S i)))%Z = diag (S i)) by reflexivity.
    destruct (Nat.eqb_spec (S r) 1); [lia|].
    destruct (Z.leb_spec 8 (bonus (S i))), (Z.ltb_spec (most i) (bonus (S i))); cbn [andb].
    + exists 1. rewrite El by lia. split; [f_equal; rewrite <- ED; f_equal; lia|]. split; [lia|].
      cbn [Claims21.most]. replace (S (S i) - 1) with (S i) by lia. lia.
    + exists (S r). rewrite El by lia. split; [f_equal; rewrite <- ED; f_equal; lia|]. split; [lia|].
      change (S (S i) - S r) with (S i - r). rewrite Hm. cbn [Claims21.most]. lia.
    + pose proof (H7 (S i)). lia.
    + exists (S r). rewrite El by lia. split; [f_equal; rewrite <- ED; f_equal; lia|]. split; [lia|].
      change (S (S i) - S r) with (S i - r). rewrite Hm. cbn [Claims21.most]. pose proof (H7 (S i)). lia.
Qed.

(** Cells to the right of the diagonal have fewer points than the diagonal in the same column. *)
Lemma T_right i : i < h -> forall j, i < j -> (pts (T i j) < diag j)%Z.
Proof.
  induction i as [|i IHi]; intros Hi; destruct (Hf _ Hi) as [Ef Eh].
  - intros j Hj. assert (G : (pts (T 0 j) <= 16 + 2 * most j)%Z).
    { apply cell_le_hits; [pose proof (most_bounds' j); lia|]. intros k Hk Hh. rewrite T_hit0 by (auto; lia). cbn [pts].
      pose proof (most_ge' j k ltac:(lia)). lia. }
    destruct j as [|j]; [lia|]. change (diag (S j)) with (diag j + 16 + most (S j))%Z.
    pose proof (most_bounds' (S j)). pose proof (diag_ge' j). lia.
  - assert (G : forall n j, j <= n -> S i <= j -> (pts (T (S i) j) <= diag j)%Z /\ (S i < j -> (pts (T (S i) j) < diag j)%Z)).
    { induction n as [|n IHn]; intros j Hn Hj; [lia|].
      destruct (Nat.eq_dec j (S i)) as [->|Hne].
      { destruct (T_diag (S i) Hi) as (r & -> & _). cbn [pts]. split; [lia|intros; lia]. }
      destruct j as [|j]; [lia|]. destruct (IHn j ltac:(lia) ltac:(lia)) as [IH1 _].
      pose proof (step_cost_bounds hit first stop (S i) (S j)) as Hc. pose proof (diag_ge' j) as Hd.
      pose proof (most_bounds' (S j)) as Hm. 
      assert (K : (pts (T (S i) (S j)) < diag (S j))%Z).
      { change (diag (S j)) with (diag j + 16 + most (S j))%Z.
        destruct (hit (S i) (S j)) eqn:E.
        - rewrite (T_hit i (S j)) by (auto; lia). cbv zeta. unfold pts_of, run_of.
          replace (S j - 1) with j by lia. pose proof (IHi ltac:(lia) j ltac:(lia)) as IH2.
          set (n0 := run (T i j)). clearbody n0. change (S (S j) - S n0) with (S j - n0).
          pose proof (most_ge' (S j) (S j - n0) ltac:(lia)). pose proof (most_ge' (S j) (S j) ltac:(lia)).
          assert (Hx : exists b r, (b <= most (S j))%Z /\ (if S n0 =? 1 then (bonus (S j), S n0)
             else if ((8 <=? bonus (S j)) && (bonus (S j - n0) <? bonus (S j)))%Z then (bonus (S j), 1)
             else (Z.max (Z.max 4 (bonus (S j - n0))) (bonus (S j)), S n0)) = (b, r)).
          { destruct (_ =? _); [do 2 eexists; split; [|reflexivity]; lia|].
            destruct (_ && _)%Z; (do 2 eexists; split; [|reflexivity]; lia). }
          destruct Hx as (b & r & Hbb & ->).
          unfold saturating_sub, I64_MIN.
          destruct (_ <? _)%Z; cbn [pts]; lia.
        - rewrite T_gap_pts by (auto; lia). replace (S j - 1) with j by lia. unfold saturating_sub, I64_MIN. lia. }
      split; [lia|intros _; exact K]. }
    intros j Hj. apply (G j j); lia.
Qed.

Lemma best_is_last i j : 0 < h -> best_cell hit bonus first stop h i j -> i = h - 1 /\ j = h - 1.
Proof.
  intros Hh ((Hi & Hj & _) & HM & _). destruct (Hf i Hi) as [Ef _]. rewrite Ef in Hj.
  destruct (Hf (h - 1) ltac:(lia)) as [Ef' Eh'].
  destruct (T_diag (h - 1) ltac:(lia)) as (r & E & _).
  specialize (HM (h - 1) (h - 1)). rewrite E in HM. cbn [pts] in HM.
  assert (C : hit_cell hit first stop h (h - 1) (h - 1)) by (split; [lia|]; split; [lia|exact Eh']).
  specialize (HM C).
  destruct (Nat.eq_dec i j) as [<-|Hne].
  - destruct (T_diag i Hi) as (r' & E' & _). rewrite E' in HM. cbn [pts] in HM.
    destruct (Nat.eq_dec i (h - 1)) as [|Hni]; [auto|]. pose proof (diag_lt' i (h - 1) ltac:(lia)). lia.
  - pose proof (T_right i Hi j ltac:(lia)). 
    destruct (Nat.eq_dec j (h - 1)) as [->|Hnj]; [lia|]. pose proof (diag_lt' j (h - 1) ltac:(lia)). lia.
Qed.

Lemma back_diag i : i < h -> forall prefer, back i i prefer = rev (seq 0 (S i)).
Proof.
  induction i as [|i IH]; intros Hi prefer; rewrite back_eq; destruct (T_diag _ Hi) as (r & E & _).
  - assert (Et : taken hit bonus first stop 0 0 prefer = true).
    { unfold taken. rewrite E. cbn [pts]. cbn [Claims21.diag]. destruct (Z.ltb_spec 0 (16 + 2 * bonus 0)); [reflexivity|lia]. }
    rewrite Et. reflexivity.
  - assert (Et : taken hit bonus first stop (S i) (S i) prefer = true).
    { unfold taken. rewrite E. destruct (T_diag i ltac:(lia)) as (r' & E' & _). rewrite E'. cbn [pts].
      destruct (Hf _ Hi) as [Ef _]. rewrite (T_before (S i) i) by lia. cbn [pts].
      pose proof (diag_lt' i (S i) ltac:(lia)). pose proof (diag_ge' (S i)).
      destruct (Z.ltb_spec (diag i) (diag (S i))); [|lia]. destruct (Z.ltb_spec 0 (diag (S i))); [reflexivity|lia]. }
    rewrite Et, IH by lia. rewrite (seq_S (S i) 0), rev_app_distr. reflexivity.
Qed.

End Table.

Section WithUnicode.
Context {UC : unicode}.

Lemma bonus_gap sch l j : (bonus_of sch l j <= 7 \/ 8 <= bonus_of sch l j)%Z.
Proof.
  unfold bonus_of. set (a := match j with 0 => _ | S i => _ end). set (b := place_of sch (nth j l 0%N)).
  destruct sch, a, b; cbn; lia.
Qed.

Lemma bonus_start sch l : (7 <= bonus_of sch l 0)%Z.
Proof. unfold bonus_of. set (b := place_of sch (nth 0 l 0%N)). destruct sch, b; cbn; lia. Qed.

Lemma bonus_10 sch l j : (0 <= bonus_of sch l j <= 10)%Z.
Proof. pose proof (bonus_of_top sch l j). pose proof (top_points_bounds sch). lia. Qed.

Lemma rest_diag sch l : forall n i,
  (diag (bonus_of sch l) i + rest_score sch l i (most (bonus_of sch l) i) (seq (S i) n) = diag (bonus_of sch l) (i + n))%Z.
Proof.
  induction n as [|n IH]; intros i; [cbn [seq rest_score]; rewrite Nat.add_0_r; lia|].
  cbn [seq rest_score]. cbv zeta. rewrite Nat.eqb_refl.
  rewrite <- plus_n_Sm. change (S (i + n)) with (S i + n). rewrite <- (IH (S i)).
  pose proof (most_bounds (bonus_of sch l) (bonus_10 sch l) (bonus_start sch l) i) as Hm.
  pose proof (bonus_gap sch l (S i)) as Hg. set (b := bonus_of sch l (S i)) in *.
  assert (Em : (if ((8 <=? b) && (most (bonus_of sch l) i <? b))%Z then b else most (bonus_of sch l) i) = most (bonus_of sch l) (S i)).
  { change (most (bonus_of sch l) (S i)) with (Z.max (most (bonus_of sch l) i) b).
    destruct (Z.leb_spec 8 b), (Z.ltb_spec (most (bonus_of sch l) i) b); cbn [andb]; lia. }
  rewrite Em. change (diag (bonus_of sch l) (S i)) with (diag (bonus_of sch l) i + 16 + most (bonus_of sch l) (S i))%Z.
  change (most (bonus_of sch l) (S i)) with (Z.max (most (bonus_of sch l) i) b). lia.
Qed.

Lemma whole_score sch l n : 0 < n -> alignment_score sch l (seq 0 n) = diag (bonus_of sch l) (n - 1).
Proof.
  intros Hn. destruct n as [|n]; [lia|]. cbn [seq alignment_score].
  replace (S n - 1) with (0 + n) by lia. rewrite <- (rest_diag sch l n 0). cbn [diag most]. reflexivity.
Qed.

(** ** FzfV2 *)
Lemma v2_whole sens norm sch p l sc ps : p <> [] -> Forall2 (agrees sens norm) p l ->
  v2_result sens norm sch p l = Some (sc, ps) ->
  sc = alignment_score sch l (seq 0 (length p)) /\ ps = rev (seq 0 (length p)).
Proof.
  intros Hp F Hr. pose proof (Forall2_len _ _ _ F) as El. assert (Hn : 0 < length p) by (destruct p; [congruence|simpl; lia]).
  assert (Ho : occurs_at (agrees sens norm) p l 0) by (exists [], l, []; rewrite app_nil_r; auto).
  pose proof Hr as Hr'. unfold v2_result in Hr'.
  destruct (greedy _ p l 0) as [fs|] eqn:G; [|discriminate].
  destruct (last_col _ _ p l) as [stop|] eqn:L; [|discriminate]. clear Hr'.
  destruct (occurs_cells sens norm p l fs stop Hp G L 0 Ho) as [Hs Hc].
  pose proof (stop_lt sens norm p l fs stop Hp G L) as Hs'. assert (Es : stop = length p - 1) by lia. subst stop.
  assert (Hf : forall i, i < length p -> firsts fs i = i /\ hit_of sens norm p l i i = true).
  { intros i Hi. destruct (Hc i Hi) as [H1 H2]. split; [|exact H2].
    pose proof (firsts_facts sens norm p l fs (length p - 1) Hp G L i Hi). lia. }
  destruct (v2_result_cell _ _ _ _ _ _ _ Hp G L _ _ Hr) as (i & j & B & -> & ->).
  apply (best_is_last _ _ _ (length p) (bonus_10 sch l) (bonus_gap sch l) (bonus_start sch l) Hf i j Hn) in B as [-> ->].
  destruct (T_diag _ _ _ (length p) (bonus_10 sch l) (bonus_gap sch l) (bonus_start sch l) Hf (length p - 1) ltac:(lia)) as (r & E & _).
  split; [rewrite E; cbn [pts]; symmetry; apply whole_score; exact Hn|].
  rewrite (back_diag _ _ _ (length p) (bonus_10 sch l) (bonus_gap sch l) (bonus_start sch l) Hf) by lia.
  do 2 f_equal. lia.
Qed.

Lemma v1_whole o text c sc rs : text <> [] -> Forall2 (agreement o text) text c ->
  fuzzy_outcome AlgoV1 o text c = Some (sc, rs) ->
  sc = alignment_score (opt_scheme o) c (seq 0 (length text)) /\ rs = map (char_range c) (seq 0 (length text)).
Proof.
  intros Ht Fc Hf. assert (Hn : 0 < length text) by (destruct text; [congruence|simpl; lia]).
  assert (Ho : occurs_at (agreement o text) text c 0) by (exists [], c, []; rewrite app_nil_r; auto).
  pose proof (occurs_alignment _ _ _ _ Ho) as A.
  destruct (v1_case _ _ _ _ _ Ht Hf) as (ps & _ & Esc & Ers & [S F] & Hmin & _).
  specialize (Hmin _ A). rewrite (last_nth (seq _ _)), seq_length, seq_nth in Hmin by lia.
  assert (Eps : ps = seq 0 (length text)).
  { rewrite (Forall2_len _ _ _ F). apply packed; [exact S|apply Forall_forall; intros; lia|].
    intros _. rewrite <- (Forall2_len _ _ _ F). lia. }
  subst ps. auto.
Qed.

(** The only place where the other kinds of terms can find the whole candidate. *)
Lemma place_whole o k text c : k <> KFuzzy -> text <> [] -> Forall2 (agreement o text) text c ->
  (k = KPrefix -> hd 0%N text <> 32%N) ->
  place_found o (Term false k text) c = Some 0.
Proof.
  intros Hk Ht F Hp. pose proof (Forall2_len _ _ _ F) as El.
  assert (X : exists i, place_found o (Term false k text) c = Some i).
  { unfold place_found. cbn [t_kind t_text]. destruct k; [congruence|..].
    - apply (exact_find_iff o (Term false KExact text) c Ht). exists 0, [], c, []. rewrite app_nil_r. auto.
    - apply prefix_find_in. exists 0, c, []. rewrite app_nil_r. auto.
    - apply suffix_find_in. exists [], c, 0. cbn. rewrite app_nil_r. auto.
    - destruct (list_eq_dec N.eq_dec text (spaces (length text))) as [Eb|Eb].
      + assert (Ec : c = spaces (length text)).
        { assert (F' : Forall2 (agreement o text) (spaces (length text)) c) by (rewrite <- Eb; exact F).
          apply Forall2_spaces in F'. exact F'. }
        destruct (proj2 (equal_find_blank (sensitive_for (opt_case o) text) (opt_norm o) (length text) c ltac:(destruct text; [congruence|simpl; lia])) Ec) as (i & E).
        exists i. rewrite <- Eb in E. exact E.
      + apply equal_find_in; [exact Eb|]. exists 0, c, 0. split; [cbn; rewrite app_nil_r; reflexivity|exact F]. }
  destruct X as (i & E). rewrite E. f_equal.
  pose proof (place_found_hits o (Term false k text) c i Ht E) as [_ B]. cbn [t_text] in B. lia.
Qed.

Lemma whole_outcome a o k text c : text <> [] -> Forall2 (agreement o text) text c ->
  (k = KPrefix -> hd 0%N text <> 32%N) ->
  exists rs, base_outcome a o (Term false k text) c = Some (alignment_score (opt_scheme o) c (seq 0 (length text)), rs)
    /\ inserts [] rs = [(0, byte_len c)].
Proof.
  intros Ht F Hp. pose proof (Forall2_len _ _ _ F) as El. assert (Hn : 0 < length text) by (destruct text; [congruence|simpl; lia]).
  assert (Esp : span c 0 (0 + length text) = (0, byte_len c)).
  { unfold span. rewrite Nat.add_0_l, El, firstn_all. reflexivity. }
  destruct (match k with KFuzzy => true | _ => false end) eqn:Ek.
  - destruct k; try discriminate. unfold base_outcome. cbn [t_kind t_text].
    assert (Ho : occurs_at (agreement o text) text c 0) by (exists [], c, []; rewrite app_nil_r; auto).
    assert (Hf : fuzzy_in (agreement o text) text c) by (eexists; apply occurs_alignment; exact Ho).
    apply (fuzzy_outcome_iff o a text c Ht) in Hf as ([sc rs] & Hf). destruct a.
    + destruct (v1_whole _ _ _ _ _ Ht F Hf) as [-> ->]. eexists. split; [exact Hf|].
      rewrite <- Esp. apply run_inserts; [lia..|]. intros j. rewrite in_seq. reflexivity.
    + destruct (v2_case _ _ _ _ _ Ht Hf) as (ps & fs & stop & Hr & -> & _).
      destruct (v2_whole _ _ _ _ _ _ _ Ht F Hr) as [-> ->]. eexists. split; [exact Hf|].
      rewrite <- Esp. apply run_inserts; [lia..|]. intros j. rewrite <- in_rev, in_seq. reflexivity.
  - assert (Hk' : k <> KFuzzy) by (intros ->; discriminate). exists [(0, byte_len c)]. split.
    + unfold base_outcome. cbn [t_kind t_text]. rewrite (place_whole o k text c) by auto. rewrite Esp.
      destruct k; [congruence|reflexivity..].
    + reflexivity.
Qed.

Lemma c82_whole : forall a o m ps s k text c buf,
  metric_reached a o m -> parse_spec s = [[Term false k text]] ->
  Forall2 (agreement o text) text c -> (k = KPrefix -> hd 0%N text <> 32%N) ->
  find_ranges ps m s c buf
    = Ok (Some (from_score (alignment_score (opt_scheme o) c (seq 0 (length c)))), buf ++ [(0, byte_len c)]).
Proof.
  intros a o m ps s k text c buf Hm Hs F Hp. pose proof (single_text _ _ _ _ Hs) as Ht.
  destruct (single_result a o m ps s k text c buf Hm Hs) as [_ ->].
  destruct (whole_outcome a o k text c Ht F Hp) as (rs & -> & ->). rewrite (Forall2_len _ _ _ F). reflexivity.
Qed.

Lemma agrees_refl sens norm x : agrees sens norm x x.
Proof. left. unfold same_char. destruct sens; reflexivity. Qed.

Lemma agreement_refl o text c : Forall2 (agreement o text) c c.
Proof. induction c; constructor; [apply agrees_refl|assumption]. Qed.

Lemma c82_self : forall a o m ps s k text buf,
  metric_reached a o m -> parse_spec s = [[Term false k text]] -> (k = KPrefix -> hd 0%N text <> 32%N) ->
  find_ranges ps m s text buf
    = Ok (Some (from_score (alignment_score (opt_scheme o) text (seq 0 (length text)))), buf ++ [(0, byte_len text)]).
Proof. intros. eapply c82_whole; eauto using agreement_refl. Qed.

Lemma c82_not_extended : forall a o m text q c buf,
  metric_reached a o m -> fuzzy_query text q -> text <> [] -> Forall2 (agreement o text) text c ->
  exists m', metric_distance_and_ranges m q c buf
    = Ok (Some (from_score (alignment_score (opt_scheme o) c (seq 0 (length c)))), m', buf ++ [(0, byte_len c)]).
Proof.
  intros a o m text q c buf Hm Hq Ht F. 
  destruct (whole_outcome a o KFuzzy text c Ht F ltac:(discriminate)) as (rs & E & Ei).
  destruct (fuzzy_result a o m text q c buf Hm Hq) as [_ (m' & E')].
  unfold raw_outcome in E'. unfold base_outcome in E. cbn [t_kind t_text] in E. rewrite E in E'.
  rewrite <- (Forall2_len _ _ _ F). destruct text; [congruence|]. cbn [fst snd option_map] in E'. rewrite Ei in E'. eauto.
Qed.

(** ** No occurrence is worth more than the whole candidate *)

Definition letter (p : place) : bool := match p with PLower | PUpper | PLetter => true | _ => false end.
Definition alike_places (a b : place) : Prop := a = b \/ (letter a = true /\ letter b = true).

Lemma points_inner sch a b a' b' : alike_places a a' -> alike_places b b' ->
  (points sch a b = points sch a' b' \/ (points sch a' b' <= 7)%Z).
Proof.
  intros [<-|[H1 H2]] [<-|[H3 H4]]; [left; reflexivity|..];
    destruct sch, a; try discriminate; try destruct a'; try discriminate; destruct b; try discriminate; try destruct b'; try discriminate; cbn; auto; right; lia.
Qed.

Lemma points_start sch a b b' : alike_places b b' -> (points sch a b' <= points sch (before_start sch) b)%Z.
Proof.
  intros [<-|[H1 H2]]; [|destruct b; try discriminate; destruct b'; try discriminate]; destruct sch, a; try destruct b; cbn; lia.
Qed.

Section Compare.
Variables (sch : scheme_name) (l l' : str) (k : nat).
Let alike_at (i : nat) : Prop := alike_places (place_of sch (nth i l 0%N)) (place_of sch (nth (k + i) l' 0%N)).

Lemma bonus_inner i : alike_at i -> alike_at (S i) ->
  (bonus_of sch l (S i) = bonus_of sch l' (k + S i) \/ (bonus_of sch l' (k + S i) <= 7)%Z).
Proof.
  intros A B. unfold bonus_of. unfold alike_at in *. rewrite <- plus_n_Sm in *. cbn iota. apply points_inner; assumption.
Qed.

Lemma rest_le : forall n i best best', (7 <= best)%Z -> (best' <= best)%Z ->
  (forall j, i <= j <= i + n -> alike_at j) ->
  (rest_score sch l' (k + i) best' (seq (S (k + i)) n) <= rest_score sch l i best (seq (S i) n))%Z.
Proof.
  induction n as [|n IH]; intros i best best' H7 Hle A; [cbn; lia|].
  cbn [seq rest_score]. cbv zeta. rewrite !Nat.eqb_refl.
  pose proof (bonus_inner i (A i ltac:(lia)) (A (S i) ltac:(lia))) as Hb. rewrite <- plus_n_Sm in Hb.
  set (b := bonus_of sch l (S i)) in *. set (b' := bonus_of sch l' (S (k + i))) in *.
  set (x := if ((8 <=? b) && (best <? b))%Z then b else best). set (x' := if ((8 <=? b') && (best' <? b'))%Z then b' else best').
  assert (Hx : (7 <= x)%Z /\ (x' <= x)%Z /\ (x' <= Z.max b best)%Z /\ (b' <= Z.max b best)%Z /\ (x = Z.max b best \/ (x = best /\ b <= 7))%Z).
  { unfold x, x'. destruct (Z.leb_spec 8 b), (Z.ltb_spec best b), (Z.leb_spec 8 b'), (Z.ltb_spec best' b'); cbn [andb];
      repeat split; try lia. }
  destruct Hx as (X1 & X2 & X3 & X4 & X5).
  pose proof (IH (S i) x x' X1 X2 ltac:(intros j Hj; apply A; lia)) as IH'. rewrite <- plus_n_Sm in IH'. lia.
Qed.

Lemma run_le n : 0 < n -> (forall j, j < n -> alike_at j) ->
  (alignment_score sch l' (seq k n) <= alignment_score sch l (seq 0 n))%Z.
Proof.
  intros Hn A. destruct n as [|n]; [lia|]. cbn [seq alignment_score].
  assert (H0 : (bonus_of sch l' k <= bonus_of sch l 0)%Z).
  { pose proof (A 0 ltac:(lia)) as A0. unfold alike_at in A0. rewrite Nat.add_0_r in A0. unfold bonus_of.
    apply points_start. exact A0. }
  pose proof (rest_le n 0 _ _ (bonus_start sch l) H0 ltac:(intros j Hj; apply A; lia)) as R.
  rewrite Nat.add_0_r in R. lia.
Qed.
End Compare.

Lemma ascii_alpha_letter sch x : is_ascii_alphabetic x = true -> letter (place_of sch x) = true.
Proof.
  unfold is_ascii_alphabetic, is_ascii_lowercase, is_ascii_uppercase, place_of. intros H.
  destruct (N.ltb_spec x 128); [|lia].
  destruct (N.leb_spec 97 x), (N.leb_spec x 122); cbn [andb]; try reflexivity;
    (destruct (N.leb_spec 65 x), (N.leb_spec x 90); cbn [andb]; try reflexivity; lia).
Qed.

Lemma same_char_places sch sens x y : same_char sens x y -> alike_places (place_of sch x) (place_of sch y).
Proof.
  unfold same_char. destruct sens; [intros ->; left; reflexivity|]. intros E.
  destruct (N.eq_dec x y) as [->|Hne]; [left; reflexivity|]. right.
  split; apply ascii_alpha_letter; unfold is_ascii_alphabetic, is_ascii_lowercase, is_ascii_uppercase;
    unfold fold_case in E; destruct (_ && _) eqn:E1 in E; destruct (_ && _) eqn:E2 in E; lia.
Qed.

Lemma base_run a o k text c sc rs : k <> KFuzzy -> text <> [] -> base_outcome a o (Term false k text) c = Some (sc, rs) ->
  exists i, sc = alignment_score (opt_scheme o) c (seq i (length text)) /\ occurs_at (agreement o text) text c i.
Proof.
  intros Hk Ht H. unfold base_outcome in H. cbn [t_kind t_text] in H.
  destruct (place_found o (Term false k text) c) as [i|] eqn:E.
  - exists i. split; [destruct k; [congruence|injection H as <- _; reflexivity..]|].
    destruct (place_found_hits o (Term false k text) c i Ht E) as [Hh Hl]. cbn [t_text] in *.
    destruct (place_decomposed (agreement o text) _ (char_eq_agrees _ _) text c i Hh Hl) as (pre & mid & post & E1 & E2 & F & _).
    exists pre, mid, post. auto.
  - destruct k; [congruence|discriminate..].
Qed.

Lemma c83_first : forall a o m m' ps ps' s k text c d,
  metric_reached a o m -> metric_reached a o m' -> parse_spec s = [[Term false k text]] -> k <> KFuzzy ->
  (k = KPrefix -> hd 0%N text <> 32%N) ->
  opt_norm o = false \/ (forall y, In y c -> normal_form y = y \/ u_lowercase y = true \/ u_uppercase y = true) ->
  find ps' m' s c = Ok (Some d) ->
  exists d0, find ps m s text = Ok (Some d0) /\ distance_cmp d0 d <> Gt.
Proof.
  intros a o m m' ps ps' s k text c d Hm Hm' Hs Hk Hp Hn E. pose proof (single_text _ _ _ _ Hs) as Ht.
  destruct (single_result a o m ps s k text text [] Hm Hs) as [E1 _].
  destruct (whole_outcome a o k text text Ht (agreement_refl o text text) Hp) as (rs0 & E0 & _). rewrite E0 in E1.
  cbn [option_map fst] in E1. eexists. split; [exact E1|].
  destruct (single_result a o m' ps' s k text c [] Hm' Hs) as [E2 _]. rewrite E in E2.
  destruct (base_outcome a o (Term false k text) c) as [[sc rs]|] eqn:Eb; [|discriminate]. injection E2 as ->.
  destruct (base_run _ _ _ _ _ _ _ Hk Ht Eb) as (i & -> & Ho).
  cbn [fst]. unfold distance_cmp, from_score. rewrite Z.compare_gt_iff. apply Z.le_ngt.
  apply run_le; [destruct text; [congruence|simpl; lia]|]. intros j Hj. apply occurs_nth in Ho as [_ Ho].
  destruct (nth_error text j) as [x|] eqn:Ex; [|apply nth_error_None in Ex; lia].
  destruct (Ho j x Ex) as (y & Ey & Hxy). rewrite (nth_error_nth _ _ _ Ex), (nth_error_nth _ _ _ Ey).
  destruct Hxy as [Hxy|[Hno Hxy]]; [exact (same_char_places _ _ _ _ Hxy)|].
  destruct Hn as [Hn|Hn]; [congruence|]. apply nth_error_In in Ey.
  destruct (normal_form_cases y) as [En|[Hy Ha]]; [rewrite En in Hxy; exact (same_char_places _ _ _ _ Hxy)|].
  right. split.
  - apply same_char_places with (sch := opt_scheme o) in Hxy. apply ascii_alpha_letter with (sch := opt_scheme o) in Ha.
    destruct Hxy as [E3|[E3 _]]; [rewrite E3; exact Ha|exact E3].
  - destruct (Hn y Ey) as [Hn'|Hn'].
    + rewrite Hn' in Ha. unfold is_ascii_alphabetic, is_ascii_lowercase, is_ascii_uppercase in Ha. lia.
    + unfold place_of. destruct (N.ltb_spec y 128); [lia|]. destruct (u_lowercase y); [reflexivity|].
      destruct Hn' as [E3|E3]; [discriminate|rewrite E3; reflexivity].
Qed.

Lemma c83_letter : forall a o m m' ps ps' s k text x rest c d,
  metric_reached a o m -> metric_reached a o m' -> parse_spec s = [[Term false k text]] ->
  text = x :: rest -> ascii_letter x -> find ps' m' s c = Ok (Some d) ->
  exists d0, find ps m s text = Ok (Some d0) /\ distance_cmp d0 d <> Gt.
Proof.
  intros a o m m' ps ps' s k text x rest c d Hm Hm' Hs Et Hx E.
  rewrite <- (app_nil_r text). eapply c67_unbeatable; try eassumption.
  - apply agreement_refl.
  - rewrite app_nil_r, Et. eapply c67_word_start; [reflexivity|exact Hx|auto].
  - intros _. rewrite Et. cbn. unfold ascii_letter in Hx. lia.
  - reflexivity.
Qed.
End WithUnicode.
