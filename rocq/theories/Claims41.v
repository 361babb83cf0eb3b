(** Proofs of C106 for FzfV2: what the way back costs. *)
From Coq Require Import Sorted.
From Verif Require Import Prelude Chars Utils Candidate MatchedRanges Query Parser Scoring
  Slab Fzf FzfV1 FzfV2 Api Cost CostRanges CostFormula RangesFormula History
  Spec PreludeProofs CharsProofs MatchedRangesProofs CandidateProofs ScoreProofs V1Proofs V2Tables V2Proofs V2Rows V2Fuzzy
  CostProofs CostBounds CostExact CostRangesProofs CostRangesBounds
  ParserProofs ApiProofs ShapeProofs NormalizeProofs RangeProofs Claims1 Claims2 Claims3 Claims5 Claims14 Claims19 Claims35 Claims39 Claims40.
From Verif Require V2Facts.
Local Open Scope nat_scope.

Lemma count_ok A B (a : A) (k : A -> timed B) : snd (tbind (lift (Ok a)) k) = snd (k a).
Proof. reflexivity. Qed.

(** * In front of all others *)

Lemma prepend_steps pre own lo x y : chain lo own -> x < y -> match own with [] => True | (s, _) :: _ => y <= s end ->
  snd (mr_insert_tm (mk pre own) (x, y))
  = probes (length own) + match own with [] => 0 | (s, _) :: _ => if s <=? y then 0 else length own end.
Proof.
  intros Hc Hxy Hf. unfold mr_insert_tm, binary_search_by_tm. cbn [fst snd mr_ranges mr_initial_len mk]. rewrite app_length.
  replace (length pre + length own - length pre) with (length own) by lia.
  change (MkRanges (pre ++ own) (length pre)) with (mk pre own).
  assert (Es : search_start own x 0 = inr 0).
  { destruct own as [|[s e] t]; [reflexivity|]. cbn [search_start fst]. destruct (Nat.eqb_spec s x); [lia|]. destruct (Nat.ltb_spec x s); [reflexivity|lia]. }
  assert (Eb : binary_search_by (mk pre own) x = Ok (inr 0)).
  { unfold binary_search_by. rewrite own_mk. cbn [bind]. rewrite Es. reflexivity. }
  assert (E : fst (spend (probes (length own)) (lift (binary_search_by (mk pre own) x))) = Ok (inr 0)).
  { rewrite fst_spend, fst_lift. exact Eb. }
  rewrite (count_bind _ _ _ _ _ E), steps_spend, steps_lift, Nat.add_0_r. f_equal. cbn [Nat.eqb].
  unfold mr_get. cbn [mr_ranges mr_initial_len mk]. rewrite Nat.add_0_r. destruct own as [|[s e] t].
  - rewrite app_nil_r. replace (nth_error pre (length pre)) with (@None range); [apply steps_lift|]. symmetry. apply nth_error_None. lia.
  - rewrite nth_error_app2, Nat.sub_diag by lia. cbn [nth_error fst]. destruct (s <=? y); [apply steps_lift|].
    unfold mr_insert_at_tm. rewrite steps_spend, steps_lift. cbn [mr_ranges mr_initial_len mk]. rewrite app_length. lia.
Qed.

Lemma ins_prepend own lo x y : chain lo own -> x < y -> match own with [] => True | (s, _) :: _ => y <= s end ->
  ins own x y = match own with [] => [(x, y)] | (s, e) :: t => if s <=? y then (x, e) :: t else (x, y) :: own end.
Proof.
  intros Hc Hxy Hf. destruct own as [|[s e] t]; [reflexivity|]. cbn [ins]. destruct (Nat.eqb_spec s x); [lia|].
  destruct (Nat.ltb_spec x s); [reflexivity|lia].
Qed.

(** Is position [k] next to the first of [done]? *)
Definition next_to (k : nat) (done : list nat) : bool := match done with d :: _ => d =? S k | [] => false end.

(** Adding [ps], from right to left, in front of [done]. *)
Fixpoint prepending_onto (done ps : list nat) : nat :=
  match ps with
  | [] => 0
  | k :: t => binary_probes (runs_of done) + (if next_to k done then 0 else runs_of done) + prepending_onto (k :: done) t
  end.

Lemma prepending_rev ps : forall done, prepending (rev ps ++ done) = prepending done + prepending_onto done ps.
Proof.
  induction ps as [|k t IH]; intros done; cbn [rev prepending_onto app]; [lia|].
  rewrite <- app_assoc. change ([k] ++ done) with (k :: done). rewrite IH. cbn [prepending]. unfold next_to. lia.
Qed.

Lemma last_in (x : nat) t d : In (last (x :: t) d) (x :: t).
Proof. revert x. induction t as [|y t IH]; intros x; [left; reflexivity|]. right. exact (IH y). Qed.

Section Back.
Context {UC : unicode}.
Variables (sch : fzf_scheme) (l : list char) (a w h : nat).
Hypothesis Hw : a + w <= length l.
Variables (c : candidate).
Hypothesis Hc : cand_ok c.
Hypothesis Hslice : cand_slice c = firstn w (skipn a l).
Variables (hit : nat -> nat -> bool) (first : nat -> nat).
Notation T := (table hit (bonus_in sch l a) first (w - 1)).
Notation f := (pts_of T).
Notation g := (run_of T).
Notation S_ := (MkMatrix (rows 0%Z f w h h) h w).
Notation G_ := (MkMatrix (rows 0 g w h h) h w).
Notation back := (way_back hit (bonus_in sch l a) first (w - 1) h).

(** The ranges of the positions [done], all of which are behind position [k]. *)
Definition front (k : nat) (own : list range) (done : list nat) : Prop :=
  chain 0 own /\ length own = runs_of done
  /\ match own, done with
     | [], [] => True
     | (s, _) :: _, d :: _ => s = byte_len (firstn d l) /\ k < d <= length l
     | _, _ => False
     end.

Lemma front_weaken k k' own done : k' <= k -> front k own done -> front k' own done.
Proof.
  intros H (H1 & H2 & H3). split; [exact H1|]. split; [exact H2|]. destruct own as [|[s e] t], done as [|d dn]; auto.
  destruct H3 as [H3 H4]. split; [exact H3|lia].
Qed.

Lemma front_insert k own done pre x y : char_range l k = (x, y) -> k < length l -> front k own done ->
  snd (mr_insert_tm (mk pre own) (x, y)) = binary_probes (runs_of done) + (if next_to k done then 0 else runs_of done)
  /\ forall k', k' < k -> front k' (ins own x y) (k :: done).
Proof.
  intros E Hk (H1 & H2 & H3). pose proof (char_range_proper l k Hk) as Hp. rewrite E in Hp. cbn [fst snd] in Hp.
  unfold char_range in E. assert (x = byte_len (firstn k l) /\ y = byte_len (firstn (S k) l)) as [-> ->] by (split; congruence). clear E.
  assert (Hf : match own with [] => True | (s, _) :: _ => byte_len (firstn (S k) l) <= s end).
  { destruct own as [|[s e] t]; [exact I|]. destruct done as [|d dn]; [contradiction|]. destruct H3 as [-> H3].
    apply byte_len_firstn_le. lia. }
  assert (Hn : match own with [] => true | (s, _) :: _ => Bool.eqb (s <=? byte_len (firstn (S k) l)) (next_to k done) end = true).
  { destruct own as [|[s e] t]; [reflexivity|]. destruct done as [|d dn]; [contradiction|]. destruct H3 as [-> H3]. cbn [next_to].
    destruct (Nat.eqb_spec d (S k)) as [->|Hne]; [rewrite Nat.leb_refl; reflexivity|].
    assert (byte_len (firstn (S k) l) < byte_len (firstn d l)) by (apply byte_len_firstn_lt; lia).
    destruct (Nat.leb_spec (byte_len (firstn d l)) (byte_len (firstn (S k) l))); [lia|reflexivity]. }
  pose proof (ins_prepend own 0 _ _ H1 Hp Hf) as Ei. pose proof (ins_chain own (byte_len (firstn k l)) (byte_len (firstn (S k) l))) as Ic.
  split.
  - rewrite (prepend_steps pre own 0 _ _ H1 Hp Hf), H2. change (probes (runs_of done)) with (binary_probes (runs_of done)). f_equal.
    destruct own as [|[s e] t].
    + destruct done as [|d dn]; [reflexivity|contradiction].
    + apply Bool.eqb_prop in Hn. rewrite Hn. reflexivity.
  - intros k' Hk'. split; [|split].
    + apply ins_chain; [lia..|exact H1].
    + rewrite Ei. cbn [runs_of]. fold (next_to k done). destruct own as [|[s e] t].
      * destruct done as [|d dn]; [reflexivity|contradiction].
      * apply Bool.eqb_prop in Hn. rewrite Hn. destruct (next_to k done); cbn [length] in *; lia.
    + rewrite Ei. destruct own as [|[s e] t]; [split; [reflexivity|lia]|]. destruct (s <=? _); split; (reflexivity || lia).
Qed.

Lemma back_counts pre : forall col fuel i prefer own done,
  col < fuel -> col < w -> i < h -> front (a + col) own done ->
  snd (matched_ranges_loop_tm fuel S_ G_ c (byte_len (firstn a l)) prefer (i * w + col) col i (mk pre own))
  = (if length (back i col prefer) =? S i then S col - last (back i col prefer) 0 else S col)
    + list_sum (map (located c) (back i col prefer)) + prepending_onto done (map (Nat.add a) (back i col prefer)).
Proof.
  induction col as [|col IH]; intros fuel i prefer own done Hf Hcol Hi Ho;
    (destruct fuel as [|fuel]; [lia|]); cbn [matched_ranges_loop_tm Nat.eqb orb]; rewrite steps_spend.
  - rewrite !m_index_rows by lia. rewrite !count_ok.
    rewrite prefer_spec by lia. cbn [way_back].
    assert (Ed : match i with 0 | _ => 0%Z end = 0%Z) by (destruct i; reflexivity). rewrite Ed.
    change (pts (T i 0)) with (f i 0).
    set (cond := andb (Z.ltb _ (f i 0)) (orb _ _)). destruct cond.
    + destruct (window_offset l a w Hw c Hc Hslice hit first 0 Hcol) as (b & Eb & Er). unfold to_byte_offset_tm.
      assert (Et : fst (spend (match c with Ascii _ => 0 | Unicode _ => 0 end) (lift (to_byte_offset c 0))) = Ok b) by exact Eb.
      rewrite (count_bind _ _ _ _ _ Et), steps_spend, steps_lift.
      rewrite (window_char l a w Hw c Hslice hit first) by exact Hcol. rewrite count_ok, Er.
      destruct (char_range l (a + 0)) as [x y] eqn:Exy.
      destruct (front_insert (a + 0) own done pre x y Exy ltac:(lia) Ho) as [I1 _].
      assert (Ei : fst (mr_insert_tm (mk pre own) (x, y)) = Ok (mk pre (ins own x y))).
      { rewrite mr_insert_same, (mr_insert_spec _ _ _ _ 0) by apply Ho. reflexivity. }
      rewrite (count_bind _ _ _ _ _ Ei), I1, orb_true_r, steps_lift.
      assert (El : located c 0 = 0) by (destruct c; reflexivity).
      assert (match c with Ascii _ => 0 | Unicode _ => 0 end = 0) as -> by (destruct c; reflexivity).
      destruct i; cbn [map list_sum fold_right prepending_onto length last]; rewrite El; cbn [Nat.eqb]; lia.
    + rewrite steps_lift. destruct i; reflexivity.
  - unfold cell_left at 1. rewrite usub_ok by lia. cbn [bind].
    replace (i * w + S col - 1) with (i * w + col) by lia.
    rewrite !m_index_rows by lia. rewrite count_ok.
    assert (Eul : (if i =? 0 then Ok 0%Z
                   else let* x := up_left S_ (i * w + S col) in m_index S_ x)
                  = Ok match i with 0 => 0%Z | S i' => f i' col end).
    { destruct i as [|i]; [reflexivity|]. cbn [Nat.eqb]. unfold up_left. cbn [m_width].
      rewrite usub_ok by (simpl; lia). cbn [bind]. rewrite usub_ok by (simpl; lia). cbn [bind].
      replace (S i * w + S col - w - 1) with (i * w + col) by (simpl; lia).
      apply m_index_rows; lia. }
    rewrite Eul. rewrite !count_ok. rewrite prefer_spec by lia. cbn [way_back].
    change (pts (T i (S col))) with (f i (S col)). change (pts (T i col)) with (f i col).
    change (run (T i (S col))) with (g i (S col)).
    set (prefer' := (1 <? g i (S col)) || _).
    assert (Ed : match i with 0 => 0%Z | S i' => pts (T i' col) end = match i with 0 => 0%Z | S i' => f i' col end)
      by reflexivity.
    rewrite Ed. clear Ed. set (cond := andb (Z.ltb _ (f i (S col))) (orb _ _)). destruct cond.
    + destruct (window_offset l a w Hw c Hc Hslice hit first (S col) Hcol) as (b & Eb & Er). unfold to_byte_offset_tm.
      assert (Et : fst (spend (match c with Ascii _ => 0 | Unicode _ => S col end) (lift (to_byte_offset c (S col)))) = Ok b) by exact Eb.
      rewrite (count_bind _ _ _ _ _ Et), steps_spend, steps_lift. fold (located c (S col)).
      rewrite (window_char l a w Hw c Hslice hit first) by exact Hcol. rewrite count_ok, Er.
      destruct (char_range l (a + S col)) as [x y] eqn:Exy.
      destruct (front_insert (a + S col) own done pre x y Exy ltac:(lia) Ho) as [I1 I2].
      assert (Ei : fst (mr_insert_tm (mk pre own) (x, y)) = Ok (mk pre (ins own x y))).
      { rewrite mr_insert_same, (mr_insert_spec _ _ _ _ 0) by apply Ho. reflexivity. }
      rewrite (count_bind _ _ _ _ _ Ei), I1.
      destruct i as [|i]; cbn [Nat.eqb orb].
      * rewrite steps_lift. cbn [map list_sum fold_right prepending_onto length last Nat.eqb]. lia.
      * rewrite usub_ok by lia. rewrite count_ok. unfold up_left. cbn [m_width].
        rewrite usub_ok by (simpl; lia). cbn [bind]. rewrite usub_ok by (simpl; lia). rewrite count_ok.
        rewrite usub_ok by lia. rewrite count_ok.
        replace (S i * w + S col - w - 1) with (i * w + col) by (simpl; lia).
        replace (S col - 1) with col by lia. replace (S i - 1) with i by lia.
        rewrite (IH fuel i prefer' (ins own x y) (a + S col :: done)) by (first [lia|apply I2; lia]).
        pose proof (back_bound hit (bonus_in sch l a) first (w - 1) h col i prefer') as Hbd.
        set (ps := back i col prefer') in *. cbn [map list_sum fold_right prepending_onto length].
        change (S (length ps) =? S (S i)) with (length ps =? S i).
        fold (list_sum (map (located c) ps)).
        assert (L : ps <> [] -> last (S col :: ps) 0 = last ps 0 /\ last ps 0 <= col).
        { destruct ps as [|z t]; [congruence|]. intros _. split; [reflexivity|]. rewrite Forall_forall in Hbd. apply Hbd, last_in. }
        destruct (Nat.eqb_spec (length ps) (S i)) as [E|E]; [|lia].
        destruct L as [L1 L2]; [destruct ps; [discriminate E|discriminate]|]. rewrite L1. lia.
    + unfold cell_left. rewrite usub_ok by lia. rewrite count_ok. rewrite usub_ok by lia. rewrite count_ok.
      replace (i * w + S col - 1) with (i * w + col) by lia.
      replace (S col - 1) with col by lia.
      rewrite (IH fuel i prefer' own done) by (first [lia|apply (front_weaken (a + S col)); [lia|exact Ho]]).
      pose proof (back_bound hit (bonus_in sch l a) first (w - 1) h col i prefer') as Hbd.
      set (ps := back i col prefer') in *.
      destruct (Nat.eqb_spec (length ps) (S i)) as [E|E]; [|lia].
      destruct ps as [|z t]; [discriminate E|]. rewrite Forall_forall in Hbd. specialize (Hbd _ (last_in z t 0)). lia.
Qed.

End Back.

Section Fuzzy.
Context {UC : unicode}.

Lemma located_with c l : forall k, located (cand_with c l) k = located c k.
Proof. destruct c; reflexivity. Qed.

Lemma v2_fuzzy_counts m sch p c pre r0 fs stop x : let sens := is_sensitive (v2_case_sensitivity m) p in let norm := v2_candidate_normalization m in
  let l := cand_slice c in let a := firsts fs 0 in
  v2_scoring_scheme m = into_inner sch -> cand_ok c -> p_text p <> [] -> p_char_len p <> 1 ->
  greedy (char_eq sens norm) (p_text p) l 0 = Some fs -> last_col sens norm (p_text p) l = Some stop ->
  fst (v2_fuzzy_ranges_tm m p c (mk pre [])) = Ok x ->
  let i := fst (v2_best sens norm sch (p_text p) l fs stop) in
  let j := snd (v2_best sens norm sch (p_text p) l fs stop) in
  let ps := way_back (hit_of sens norm (p_text p) l) (bonus_of sch l) (firsts fs) stop (length (p_text p)) i j true in
  snd (v2_fuzzy_ranges_tm m p c (mk pre []))
  = snd (v2_fuzzy_tm m p c r0) + (located c a + (if length ps =? S i then S j - last ps 0 else S j - a)
                                  + list_sum (map (fun k => located c (k - a)) ps) + prepending (rev ps)).
Proof.
  intros sens norm l a Hs Hc Hp H1 Hg El Hok. cbv zeta. rewrite (proj1 (v2_alike m p c r0 (mk pre []))).
  unfold v2_fuzzy_tm, v2_fuzzy_ranges_tm in *. cbv zeta in *. fold sens norm in Hok |- *.
  destruct (Nat.eqb_spec (p_char_len p) 1) as [?|_]; [congruence|].
  set (pt := p_text p) in *.
  assert (Hh : 0 < length pt) by (destruct pt; [congruence|simpl; lia]).
  pose proof (firsts_facts sens norm pt l fs stop Hp Hg El) as Hff.
  pose proof (a_le sens norm pt l fs stop Hp Hg El) as Ha.
  pose proof (stop_lt sens norm pt l fs stop Hp Hg El) as Hstop.
  pose proof (greedy_length _ _ _ _ _ Hg) as Hfl.
  fold a in Hff, Ha. set (w := stop + 1 - a).
  destruct (v2_matches_spec sens norm (s_indices (v2_slab_ m)) p c Hc Hp) as (ind & Em & Lind). fold pt l in Em. rewrite Hg, El in Em.
  rewrite <- v2_matches_same in Em. fold l in Em.
  rewrite fst_tbind, Em in Hok. cbn [bind] in Hok. rewrite !(count_bind _ _ _ _ _ Em).
  assert (E0 : idx fs 0 = Ok a) by (apply idx_nth; lia). rewrite E0 in *. rewrite fst_tbind, fst_lift in Hok. cbn [bind] in Hok. rewrite !count_ok.
  assert (Esb : fst (to_byte_offset_tm c a) = Ok (byte_len (firstn a l))).
  { unfold to_byte_offset_tm. rewrite fst_spend, fst_lift. apply to_byte_offset_spec; [exact Hc|]. fold l. lia. }
  rewrite fst_tbind, Esb in Hok. cbn [bind] in Hok. rewrite (count_bind _ _ _ _ _ Esb).
  unfold to_byte_offset_tm at 1. rewrite steps_spend, steps_lift. fold (located c a).
  assert (Ei : (if a =? 0 then Ok (initial_char_class (v2_scoring_scheme m))
                else let* i := usub a 1 in
                     let* x := cand_char c i in Ok (char_class x (v2_scoring_scheme m)))
               = Ok (class_before sch l a)).
  { rewrite Hs. destruct a as [|a']; [reflexivity|]. cbn [Nat.eqb]. rewrite usub_ok by lia. cbn [bind].
    replace (S a' - 1) with a' by lia. rewrite cand_char_spec. fold l. rewrite (idx_nth _ _ _ 0%N) by lia. reflexivity. }
  rewrite Ei in *. rewrite fst_tbind, fst_lift in Hok. cbn [bind] in Hok. rewrite !count_ok.
  rewrite cand_slice_range_spec in * by (fold l; lia). rewrite fst_tbind, fst_lift in Hok. cbn [bind] in Hok. rewrite !count_ok. fold l w in Hok |- *.
  set (base := cand_with c (firstn w (skipn a l))) in *.
  assert (Hbase : cand_slice base = firstn w (skipn a l)) by apply cand_slice_with.
  assert (Hbok : cand_ok base) by (apply cand_ok_with_slice; exact Hc).
  assert (Hblen : cand_char_len base = w).
  { rewrite cand_char_len_spec, Hbase, firstn_length, skipn_length. unfold w. lia. }
  rewrite Hblen in *.
  destruct (bonus_alloc_spec (s_bonus (v2_slab_ m)) w) as (bs & bv & Eb & Hbl & Hbs & Hbv).
  cbn [s_bonus] in *.
  assert (Eb' : fst (bonus_alloc_tm (s_bonus (v2_slab_ m)) w) = Ok (bs, bv)) by exact Eb.
  rewrite fst_tbind, Eb' in Hok. cbn [bind] in Hok. rewrite !(count_bind _ _ _ _ _ Eb').
  assert (Eu : fst (spend (length fs) (lift (fold_right (fun x acc => let* l := acc in let* y := usub x a in Ok (y :: l)) (Ok []) fs)))
               = Ok (map (fun x => x - a) fs)).
  { rewrite fst_spend, fst_lift. apply fold_usub. apply Forall_forall. intros y Hy. apply (In_nth _ _ 0) in Hy as (i & Hi & <-).
    pose proof (Hff i ltac:(lia)) as [? _]. unfold firsts in *. lia. }
  rewrite fst_tbind, Eu in Hok. cbn [bind] in Hok. rewrite !(count_bind _ _ _ _ _ Eu).
  set (o := opts_new sens norm) in *. set (cv := MkCv bs base (class_before sch l a) o) in *.
  assert (Hw : a + w <= length l) by (unfold w; lia).
  assert (Hcv : cv_ok sch l a w base o cv).
  { repeat split; auto. cbn. intros j b Hj Hset. rewrite (Hbs _ _ Hj) in Hset. discriminate. }
  set (hit := fun i k => hit_of sens norm pt l i (a + k)).
  set (first := fun i => firsts fs i - a).
  set (matches := map (fun x => x - a) fs) in *.
  assert (Hmf : forall cv' off q, cv_ok sch l a w base o cv' -> off <= w ->
            cv_matches_from cv' off q
            = Ok (filter (fun k => match nth_error l (a + k) with Some y => char_eq sens norm q y | None => false end)
                    (seq off (w - off)))).
  { intros cv' off q (Hb & _ & _ & Hop & _) Hoff. unfold cv_matches_from. rewrite Hb, Hop.
    unfold o. cbn [o_is_case_sensitive o_char_eq opts_new].
    assert (Hbl' : length (cand_slice base) = w) by (rewrite <- cand_char_len_spec; exact Hblen).
    rewrite cand_matches_from_spec by (auto; lia). f_equal.
    rewrite (all_idx_filter _ _ (w - off)) by lia. apply V2Fuzzy.filter_ext_in. intros k Hk. apply in_seq in Hk.
    rewrite Hbase, nth_error_firstn, nth_error_skipn. destruct (Nat.ltb_spec k w); [reflexivity|lia]. }
  destruct (v2_score_spec sch l a w Hw base o hit first p matches) with (sv := s_scoring (v2_slab_ m))
    (gv := s_consecutive (v2_slab_ m)) (cv := cv) as (cv' & mx & cell & sv' & gv' & Esc & Hcv' & Hmx & Lsv & Lgv).
  + intros i Hi. unfold p_char_len in Hi. fold pt in Hi. unfold matches, first, firsts.
    apply idx_nth_error. rewrite nth_error_map, (nth_error_nth' fs 0) by lia. reflexivity.
  + intros i Hi. unfold p_char_len in Hi. fold pt in Hi. destruct (Hff i Hi). unfold first, w. lia.
  + intros i Hi. unfold p_char_len in Hi. fold pt in Hi. destruct (Hff i Hi) as [? E].
    unfold hit, first. replace (a + (firsts fs i - a)) with (firsts fs i) by lia. exact E.
  + intros i Hi. unfold p_char_len in Hi. fold pt in Hi.
    destruct (nth_error pt i) as [y|] eqn:Ex.
    2:{ apply nth_error_None in Ex. lia. }
    exists y. split; [unfold p_char; fold pt; apply idx_nth_error; exact Ex|].
    intros cv' off Hcv' Hoff. rewrite Hmf by auto. f_equal. apply V2Fuzzy.filter_ext_in. intros k _.
    unfold hit, hit_of. rewrite Ex. reflexivity.
  + unfold p_char_len. fold pt. lia.
  + unfold first. fold a. lia.
  + exact Hcv.
  + intros q. unfold cv_matches_from, cv_matches. cbn [cv_base cv_opts cv].
    unfold o. cbn [o_is_case_sensitive o_char_eq opts_new].
    rewrite cand_matches_from_spec by (auto; lia). rewrite cand_matches_spec by auto. reflexivity.
  + exact Hblen.
  + cbn [s_scoring s_consecutive] in *. rewrite <- Hs, <- v2_score_same in Esc.
    rewrite fst_tbind, Esc in Hok. cbn [bind] in Hok. rewrite !(count_bind _ _ _ _ _ Esc).
    rewrite fst_tbind in Hok. apply ok_bind in Hok as (rr & Er & _).
    unfold p_char_len in Hmx. fold pt in Hmx.
    destruct (v2_best_spec sens norm sch pt l fs stop Hp Hg El) as (i & k & Ec & Hk & Hi & Ebest & _ & _).
    fold a w hit first in Ec, Hk, Ebest.
    rewrite <- Hmx in Ec. cbn [fst snd] in Ec. rewrite Ebest. cbn [fst snd].
    rewrite (count_bind _ _ _ _ _ Er), !steps_lift. clear Er.
    destruct Hcv' as (Hcvb & _). rewrite Hcvb.
    unfold matched_ranges_tm, col_of, row_of. cbn [m_width].
    destruct (Nat.ltb_spec 0 w) as [Hw0|]; [|unfold w in *; lia]. cbn [assert_ bind]. rewrite !count_ok.
    rewrite Ec. rewrite Nat.div_add_l, Nat.div_small by lia. rewrite !Nat.add_0_r.
    replace ((i * w + k) mod w) with k by (rewrite Nat.add_comm, Nat.mod_add, Nat.mod_small by lia; reflexivity).
    unfold p_char_len. fold pt.
    rewrite (back_counts sch l a w (length pt) Hw base Hbok Hbase hit first pre k (S w) i true [] []) by (first [lia|split; [exact I|split; [reflexivity|exact I]]]).
    assert (Esh : way_back (hit_of sens norm pt l) (bonus_of sch l) (firsts fs) stop (length pt) i (a + k) true
                  = map (Nat.add a) (way_back hit (bonus_in sch l a) first (w - 1) (length pt) i k true)).
    { rewrite (stop_eq sens norm pt l fs stop Hp Hg El) at 1. fold a w.
      rewrite shift_back; auto; [apply (Hff 0 Hh)|]. intros j Hj. apply Hff. exact Hj. }
    rewrite !Esh. set (ps := way_back hit _ first (w - 1) (length pt) i k true).
    rewrite map_length, map_map. rewrite <- (app_nil_r (rev (map (Nat.add a) ps))), prepending_rev. cbn [prepending].
    replace (map (fun x => located c (a + x - a)) ps) with (map (located base) ps).
    2:{ apply map_ext. intros z. unfold base. rewrite located_with. f_equal. lia. }
    assert (L : length ps = S i -> last (map (Nat.add a) ps) 0 = a + last ps 0).
    { destruct ps as [|z t]; [discriminate|]. intros _. clear. revert z. induction t as [|y t IH]; intros z; [reflexivity|]. exact (IH y). }
    destruct (Nat.eqb_spec (length ps) (S i)) as [E|E]; [rewrite (L E)|]; lia.
Qed.

End Fuzzy.

Section Char.
Context {UC : unicode}.

Lemma push_free pre a b : mr_insert_tm (mk pre []) (a, b) = lift (Ok (mk pre [(a, b)])).
Proof.
  assert (E1 : fst (mr_insert_tm (mk pre []) (a, b)) = Ok (mk pre [(a, b)])).
  { rewrite mr_insert_same, (mr_insert_spec _ _ _ _ 0) by exact I. reflexivity. }
  pose proof (append_steps_exact pre [] a b I (Forall_nil _)) as E2. destruct (mr_insert_tm (mk pre []) (a, b)) as [f s].
  cbn [fst snd] in E1, E2. subst. reflexivity.
Qed.

Lemma v2_char_counts m p c pre r0 x sc m' r : p_text p = [x] -> cand_ok c ->
  fst (v2_fuzzy_ranges_tm m p c (mk pre [])) = Ok (Some sc, m', r) ->
  exists pos e, pos < length (cand_slice c) /\ r = mk pre [(byte_len (firstn pos (cand_slice c)), e)]
    /\ snd (v2_fuzzy_ranges_tm m p c (mk pre [])) = snd (v2_fuzzy_tm m p c r0) + located c pos.
Proof.
  intros Hp Hc Hok. rewrite (proj1 (v2_alike m p c r0 (mk pre []))). unfold v2_fuzzy_tm, v2_fuzzy_ranges_tm in *. cbv zeta in *.
  assert (p_char_len p =? 1 = true) as E1 by (unfold p_char_len; rewrite Hp; reflexivity). rewrite E1 in *.
  rewrite fst_tbind in Hok. apply ok_bind in Hok as (y & Ey & Hok). rewrite !(count_bind _ _ _ _ _ Ey), !steps_lift.
  rewrite fst_tbind in Hok. apply ok_bind in Hok as ([sc' r'] & E & Hok). rewrite fst_lift in Hok.
  assert (sc' = Some sc /\ r' = r) as [-> ->] by (split; congruence). clear Hok. rewrite (count_bind _ _ _ _ _ E), !steps_lift.
  unfold fuzzy_single_char_ranges_tm, fuzzy_single_char_tm in *.
  rewrite fst_tbind in E. apply ok_bind in E as (ms & Em & E). rewrite (count_bind _ _ _ _ _ Em).
  rewrite fst_tbind in E. apply ok_bind in E as ([mx pos] & El & E). rewrite (count_bind _ _ _ _ _ El).
  destruct (mx =? 0)%Z eqn:Ez; [discriminate E|].
  rewrite fst_tbind in E. apply ok_bind in E as (st & Es & E). rewrite (count_bind _ _ _ _ _ Es).
  rewrite fst_tbind in E. apply ok_bind in E as (z & Ec & E). rewrite (count_bind _ _ _ _ _ Ec), steps_lift.
  rewrite push_free in *. rewrite fst_tbind, fst_lift in E. cbn [bind] in E. rewrite fst_lift in E.
  assert (Hpos : pos < length (cand_slice c)).
  { rewrite fst_lift, cand_char_spec in Ec. apply idx_inv in Ec. apply nth_error_Some. congruence. }
  exists pos, (st + len_utf8 z). split; [exact Hpos|].
  unfold to_byte_offset_tm in Es |- *. rewrite fst_spend, fst_lift, to_byte_offset_spec in Es by (auto; lia). injection Es as <-.
  split; [congruence|]. rewrite steps_spend, !steps_lift, count_ok, steps_lift. fold (located c pos).
  unfold tbind. rewrite Em. cbn [fst snd spend]. unfold tbind. rewrite El, Ez. cbn [fst snd spend lift]. lia.
Qed.

Lemma v1_none m p c r r0 m' r' : fst (v1_fuzzy_ranges_tm m p c r) = Ok (None, m', r') ->
  snd (v1_fuzzy_ranges_tm m p c r) = snd (v1_fuzzy_tm m p c r0).
Proof.
  unfold v1_fuzzy_tm, v1_fuzzy_ranges_tm. cbv zeta. intros Hok. rewrite fst_tbind in Hok. apply ok_bind in Hok as (f & E1 & Hok).
  rewrite !(count_bind _ _ _ _ _ E1). destruct f as [e|]; [|reflexivity]. exfalso.
  rewrite fst_tbind in Hok. apply ok_bind in Hok as (s & E2 & Hok). rewrite fst_tbind in Hok. apply ok_bind in Hok as ([sc r1] & E3 & Hok). discriminate Hok.
Qed.

Lemma v2_none m p c r r0 m' r' : fst (v2_fuzzy_ranges_tm m p c r) = Ok (None, m', r') ->
  snd (v2_fuzzy_ranges_tm m p c r) = snd (v2_fuzzy_tm m p c r0).
Proof.
  unfold v2_fuzzy_tm, v2_fuzzy_ranges_tm. cbv zeta. intros Hok. destruct (p_char_len p =? 1).
  - rewrite fst_tbind in Hok. apply ok_bind in Hok as (y & Ey & Hok). rewrite !(count_bind _ _ _ _ _ Ey). f_equal.
    rewrite fst_tbind in Hok. apply ok_bind in Hok as ([sc' r1] & E & Hok). rewrite fst_lift in Hok.
    assert (sc' = None) as -> by congruence. rewrite (count_bind _ _ _ _ _ E), steps_lift.
    unfold fuzzy_single_char_ranges_tm, fuzzy_single_char_tm in *.
    rewrite fst_tbind in E. apply ok_bind in E as (ms & Em & E). rewrite (count_bind _ _ _ _ _ Em).
    rewrite fst_tbind in E. apply ok_bind in E as ([mx pos] & El & E). rewrite (count_bind _ _ _ _ _ El).
    destruct (mx =? 0)%Z eqn:Ez.
    + unfold tbind. rewrite Em. cbn [fst snd spend]. unfold tbind. rewrite El, Ez. cbn [fst snd spend lift]. lia.
    + exfalso. rewrite fst_tbind in E. apply ok_bind in E as (st & _ & E). rewrite fst_tbind in E. apply ok_bind in E as (z & _ & E).
      rewrite fst_tbind in E. apply ok_bind in E as (r2 & _ & E). discriminate E.
  - rewrite fst_tbind in Hok. apply ok_bind in Hok as ([[[offs l]|] ind] & E1 & Hok); rewrite !(count_bind _ _ _ _ _ E1); [|reflexivity]. exfalso.
    rewrite fst_tbind in Hok. apply ok_bind in Hok as (f & _ & Hok). rewrite fst_tbind in Hok. apply ok_bind in Hok as (sb & _ & Hok).
    rewrite fst_tbind in Hok. apply ok_bind in Hok as (ini & _ & Hok). rewrite fst_tbind in Hok. apply ok_bind in Hok as (base & _ & Hok).
    rewrite fst_tbind in Hok. apply ok_bind in Hok as ([bo bv] & _ & Hok). rewrite fst_tbind in Hok. apply ok_bind in Hok as (mo & _ & Hok).
    rewrite fst_tbind in Hok. apply ok_bind in Hok as ([[[[[[sc co] cv] x] cell] sv] gv] & _ & Hok).
    rewrite fst_tbind in Hok. apply ok_bind in Hok as (r1 & _ & Hok). discriminate Hok.
Qed.

Lemma close_metric {A M N} (t : timed (A * M * list range)) (k : A * M * list range -> timed (A * N)) n :
  (forall x, snd (k x) = 0) -> n = snd t -> n = snd (tbind t k).
Proof. intros H ->. unfold tbind. destruct (fst t) as [x| |]; rewrite ?steps_spend, ?H; cbn [snd]; lia. Qed.

Lemma c106_none : forall m text q c buf m' buf', fuzzy_query text q ->
  metric_distance_and_ranges m q c buf = Ok (None, m', buf') ->
  distance_and_ranges_steps m q c buf = distance_steps m q c.
Proof.
  intros m text q c buf m' buf' Hq E. apply fuzzy_query_of in Hq. subst q. rewrite <- c80_same in E.
  unfold distance_and_ranges_steps, distance_steps, metric_distance_and_ranges_tm, metric_distance_tm in *.
  destruct m as [v|v]; rewrite fst_tbind in E; apply ok_bind in E as (x & E & E2); rewrite (count_bind _ _ _ _ _ E);
    destruct x as [[d0 m0] b0]; rewrite fst_lift in E2; assert (d0 = None) as -> by congruence; clear E2; rewrite steps_lift, Nat.add_0_r;
    (apply close_metric; [intros [[? ?] ?]; reflexivity|]); destruct text as [|t0 ts]; try reflexivity.
  - erewrite (distance_extra v1_alloc_chars_tm v1_char_eq v1_scoring_scheme v1_fuzzy_tm v1_fuzzy_ranges_tm v1_dearer _ _ _ _ _ 0); [apply Nat.add_0_r|reflexivity|exact E|].
    intros cd st [[y1 y2] y3] _ Ey Hy. cbn [fst] in Hy. rewrite Nat.add_0_r. destruct y1; [discriminate Hy|]. eapply v1_none. exact Ey.
  - erewrite (distance_extra v2_alloc_chars_tm v2_char_eq v2_scoring_scheme v2_fuzzy_tm v2_fuzzy_ranges_tm v2_dearer _ _ _ _ _ 0); [apply Nat.add_0_r|reflexivity|exact E|].
    intros cd st [[y1 y2] y3] _ Ey Hy. cbn [fst] in Hy. rewrite Nat.add_0_r. destruct y1; [discriminate Hy|]. eapply v2_none. exact Ey.
Qed.

Lemma v2_read_scheme st c x : fst (if str_is_ascii c then lift (Ok (Ascii (encode c), st))
         else let! '(chars, st) := v2_alloc_chars_tm st c in lift (Ok (Unicode chars, st))) = Ok x ->
  v2_scoring_scheme (snd x) = v2_scoring_scheme st.
Proof.
  destruct (str_is_ascii c); [intros E; injection E as <-; reflexivity|].
  rewrite fst_tbind. intros E. apply ok_bind in E as ([l st'] & E & E'). injection E' as <-.
  unfold v2_alloc_chars_tm in E. rewrite fst_tbind in E. apply ok_bind in E as ([l' sl] & _ & E). injection E as _ <-. reflexivity.
Qed.

Lemma c106_v2 : forall o m text q c d m' buf buf' hit fs stop y i j,
  metric_reached AlgoV2 o m -> fuzzy_query text q -> 2 <= length text ->
  metric_distance_and_ranges m q c buf = Ok (Some d, m', buf') ->
  (forall i j, hit i j = true <->
     exists x z, nth_error text i = Some x /\ nth_error c j = Some z /\ agreement o text x z) ->
  leftmost (agreement o text) text c fs ->
  nth_error c stop = Some y -> agreement o text (last text 0%N) y ->
  (forall k z, stop < k -> nth_error c k = Some z -> ~ agreement o text (last text 0%N) z) ->
  let bonus := bonus_of (opt_scheme o) c in
  let first := fun i => nth i fs 0 in
  best_cell hit bonus first stop (length text) i j ->
  let js := rev (way_back hit bonus first stop (length text) i j true) in
  distance_and_ranges_steps m q c buf
  = distance_steps m q c + locating c (hd 0 fs)
    + (if length js =? S i then j + 1 - hd 0 js else j + 1 - hd 0 fs)
    + list_sum (map (fun k => locating c (k - hd 0 fs)) js) + prepending js.
Proof.
  intros o m text q c d m' buf buf' hit fs stop y i j Hm Hq Ht E Hhit Hfs Hy Ay Hno bonus first B js.
  assert (Ht' : text <> []) by (destruct text; [cbn in Ht; lia|discriminate]).
  apply metric_reached_options in Hm. destruct m as [v|v]; [contradiction|]. destruct Hm as (O1 & O2 & O3).
  apply fuzzy_query_of in Hq. subst q. rewrite <- c80_same in E.
  pose proof (leftmost_greedy _ _ _ _ _ Hfs) as G. pose proof (last_col_is _ _ _ _ _ _ Hy Ay Hno) as L.
  set (sens := sensitive_for (opt_case o) text) in *. set (norm := opt_norm o) in *. set (sch := opt_scheme o) in *.
  assert (Hi : i < length text) by apply B.
  assert (Hx : forall i j, hit_of sens norm text c i j = hit i j).
  { intros i0 j0. apply Bool.eq_true_iff_eq. rewrite Hhit. unfold hit_of. split.
    - destruct (nth_error text i0) as [x|]; [|discriminate]. destruct (nth_error c j0) as [z|]; [|discriminate].
      intros H. exists x, z. split; [reflexivity|]. split; [reflexivity|]. apply char_eq_agrees. exact H.
    - intros (x & z & -> & -> & A). apply char_eq_agrees. exact A. }
  assert (Hx' : forall i j, hit i j = hit_of sens norm text c i j) by (intros; symmetry; apply Hx).
  assert (Hfst : forall i, i < length text -> first i = firsts fs i) by reflexivity.
  pose proof (V2Facts.best_cell_ext hit (hit_of sens norm text c) bonus first (firsts fs) stop (length text) Hx' Hfst i j B) as B'.
  pose proof (v2_best_cell sens norm sch text c fs stop Ht' G L) as B2.
  destruct (best_cell_unique _ _ _ _ _ _ _ _ _ B' B2) as [Ei Ej].
  pose proof (V2Facts.way_back_ext hit (hit_of sens norm text c) bonus first (firsts fs) stop (length text) Hx' Hfst j i true Hi) as Ew.
  unfold distance_and_ranges_steps, distance_steps, metric_distance_and_ranges_tm, metric_distance_tm in *.
  rewrite fst_tbind in E. apply ok_bind in E as (x & E & E2). rewrite (count_bind _ _ _ _ _ E).
  destruct x as [[d0 m0] b0]. rewrite steps_lift, Nat.add_0_r.
  set (ex := locating c (hd 0 fs) + (if length js =? S i then j + 1 - hd 0 js else j + 1 - hd 0 fs)
             + list_sum (map (fun k => locating c (k - hd 0 fs)) js) + prepending js).
  rewrite <- !Nat.add_assoc.
  replace (locating c (hd 0 fs) + ((if length js =? S i then j + 1 - hd 0 js else j + 1 - hd 0 fs)
    + (list_sum (map (fun k => locating c (k - hd 0 fs)) js) + prepending js))) with ex by (unfold ex; lia).
  erewrite (distance_extra v2_alloc_chars_tm v2_char_eq v2_scoring_scheme v2_fuzzy_tm v2_fuzzy_ranges_tm v2_dearer _ _ _ _ _ ex);
    [f_equal; apply close_metric; [intros [[? ?] ?]; reflexivity|reflexivity]|destruct text; [congruence|reflexivity]|exact E|].
  intros cd st y' Ea Ey _. pose proof (v2_read_same _ _ _ Ea) as (S1 & S2 & S3). cbn [snd] in S1, S2, S3.
  pose proof (read_as _ _ _ v2_alloc_takes _ _ _ _ Ea) as (Hcd & Hsl & Hlo). rewrite mk_from in Ey |- *.
  pose proof (v2_read_scheme _ _ _ Ea) as S4. cbn [snd] in S4.
  pose proof (v2_fuzzy_counts st sch (pat_of (Term false KFuzzy text)) cd buf (mranges_from []) fs stop y') as V. cbv zeta in V.
  rewrite is_sensitive_pat, S1, S2, O1, O2, Hsl in V. rewrite V; [|congruence|exact Hcd|exact Ht'| |exact G|exact L|exact Ey].
  2:{ change (p_char_len (pat_of (Term false KFuzzy text))) with (length text). lia. }
  clear V. f_equal. change (p_text (pat_of (Term false KFuzzy text))) with text. cbn [t_text]. fold sens norm. fold bonus. rewrite <- Ei, <- Ej, <- Ew. unfold ex, js.
  set (ps := way_back hit bonus first stop (length text) i j true).
  assert (firsts fs 0 = hd 0 fs) as -> by (destruct fs; reflexivity). rewrite !Hlo, rev_length.
  assert (Hla : forall u : list nat, hd 0 (rev u) = last u 0).
  { clear. induction u as [|z u IH]; [reflexivity|]. cbn [rev]. destruct u as [|z' u]; [reflexivity|].
    change (last (z :: z' :: u) 0) with (last (z' :: u) 0). rewrite <- IH. cbn [rev]. destruct (rev u ++ [z']) eqn:R; [destruct (rev u); discriminate|]. reflexivity. }
  rewrite Hla, map_rev.
  assert (Hsum : forall u, list_sum (rev u) = list_sum u).
  { clear. induction u as [|z u IH]; [reflexivity|]. cbn [rev]. rewrite list_sum_app, IH. unfold list_sum. cbn [fold_right]. lia. }
  rewrite Hsum. rewrite (map_ext (fun k => located cd (k - hd 0 fs)) (fun k => locating c (k - hd 0 fs))) by (intros; apply Hlo).
  rewrite !Nat.add_1_r. reflexivity.
Qed.

Lemma c106_v2_char : forall o m x q c d m' buf j e,
  metric_reached AlgoV2 o m -> fuzzy_query [x] q ->
  metric_distance_and_ranges m q c buf = Ok (Some d, m', buf ++ [(byte_len (firstn j c), e)]) -> j < length c ->
  distance_and_ranges_steps m q c buf = distance_steps m q c + locating c j.
Proof.
  intros o m x q c d m' buf j e Hm Hq E Hj.
  apply metric_reached_options in Hm. destruct m as [v|v]; [contradiction|]. clear Hm.
  apply fuzzy_query_of in Hq. subst q. rewrite <- c80_same in E.
  unfold distance_and_ranges_steps, distance_steps, metric_distance_and_ranges_tm, metric_distance_tm in *.
  rewrite fst_tbind in E. apply ok_bind in E as (z & E & E2). rewrite (count_bind _ _ _ _ _ E).
  destruct z as [[d0 m0] b0]. rewrite fst_lift in E2.
  assert (d0 = Some d /\ b0 = buf ++ [(byte_len (firstn j c), e)]) as [-> ->] by (split; congruence). clear E2.
  rewrite steps_lift, Nat.add_0_r.
  erewrite (distance_extra v2_alloc_chars_tm v2_char_eq v2_scoring_scheme v2_fuzzy_tm v2_fuzzy_ranges_tm v2_dearer _ _ _ _ _ (locating c j));
    [f_equal; apply close_metric; [intros [[? ?] ?]; reflexivity|reflexivity]|reflexivity|exact E|].
  intros cd st [[y1 y2] y3] Ea Ey Hy. cbn [fst] in Hy. destruct y1 as [sc|]; [|discriminate Hy].
  pose proof (read_as _ _ _ v2_alloc_takes _ _ _ _ Ea) as (Hcd & Hsl & Hlo).
  assert (Hr : mr_ranges y3 = buf ++ [(byte_len (firstn j c), e)]).
  { unfold fzf_distance_ranges_tm in E. change (q_is_empty (NotExtended (pat_of (Term false KFuzzy [x])))) with false in E. cbv iota in E.
    rewrite fst_spend, fst_tbind in E. apply ok_bind in E as ([cd' st'] & Ea' & E).
    pose proof (eq_trans (eq_sym Ea) Ea') as X. injection X as <- <-. unfold fzf_search_ranges_tm in E. cbv zeta in E.
    rewrite fst_tbind in E. apply ok_bind in E as ([[z1 z2] z3] & Ey' & E). rewrite fst_lift in E.
    pose proof (eq_trans (eq_sym Ey) Ey') as X. injection X as <- <- <-. congruence. }
  rewrite mk_from in Ey |- *.
  destruct (v2_char_counts st (pat_of (Term false KFuzzy [x])) cd buf (mranges_from []) x sc y2 y3 eq_refl Hcd Ey) as (pos & e' & Hp & -> & ->).
  rewrite Hlo. do 2 f_equal. cbn [mr_ranges mk] in Hr. apply app_inv_head in Hr. rewrite Hsl in Hr, Hp.
  assert (Hb : byte_len (firstn pos c) = byte_len (firstn j c)) by congruence.
  destruct (Nat.lt_trichotomy pos j) as [H|[H|H]]; [|exact H|]; exfalso.
  - pose proof (byte_len_firstn_lt c pos j). lia.
  - pose proof (byte_len_firstn_lt c j pos). lia.
Qed.

End Char.
