(** Proofs for C107: fuzzy terms without a match, and what a query costs. *)
From Verif Require Import Prelude Chars Utils Candidate MatchedRanges Query Parser Scoring Slab Fzf FzfV1 FzfV2 Api Cost CostFormula TermCost History
  Spec PreludeProofs CharsProofs MatchedRangesProofs NormalizeProofs CandidateProofs ScoreProofs V1Proofs V2Proofs V2Fuzzy CostProofs CostBounds CostExact
  ParserProofs ApiProofs AcceptProofs ShapeProofs Claims1 Claims2 Claims8 Claims14 Claims15 Claims35 Claims42.
Local Open Scope nat_scope.

Section WithUnicode.
Context {UC : unicode}.

(** * Going forwards *)

Lemma search_none A (f : A -> bool) l : find_idx f l = None -> search_steps f l = length l.
Proof.
  induction l as [|x l IH]; [reflexivity|]. cbn [find_idx search_steps length]. destruct (f x); [discriminate|].
  destruct (find_idx f l); [discriminate|]. intros _. rewrite IH; reflexivity.
Qed.

Definition ascii_cand (c : candidate) : bool := match c with Ascii _ => true | Unicode _ => false end.

(** Looking for the characters of [text] one behind the other. *)
Fixpoint scan (eq : char_eq_fn) (asc : bool) (text rest : str) : nat :=
  match text with
  | [] => 0
  | x :: t =>
      S (if asc && negb (is_ascii x) then 0
         else match find_idx (eq x) rest with
              | Some i => S i + scan eq asc t (skipn (S i) rest)
              | None => length rest
              end)
  end.

Lemma first_from_missed c off ch cs eq :
  takes (find_first_from_tm c off ch cs eq) (fun o n =>
    match o with Some _ => True | None => n = if ascii_cand c && negb (is_ascii ch) then 0 else cand_char_len c - off end).
Proof.
  destruct c as [l|l]; cbn [find_first_from_tm ascii_cand cand_char_len].
  - destruct (is_ascii ch); cbn [negb andb]; [|apply takes_ok; reflexivity].
    apply takes_pure. intros l' E. apply slice_from_inv in E as [E _]. apply takes_spend, takes_ok.
    destruct (find_first_ascii _ _ _) as [i|] eqn:F; [exact I|]. cbn [option_map]. unfold find_first_ascii_steps, find_first_ascii in *.
    destruct (_ || _)%bool; rewrite search_none by exact F; lia.
  - apply takes_pure. intros l' E. apply slice_from_inv in E as [E _]. apply takes_spend, takes_ok.
    destruct (find_first_unicode _ _ _) as [i|] eqn:F; [exact I|]. cbn [option_map andb]. unfold find_first_unicode in F.
    rewrite search_none by exact F. lia.
Qed.

Section Modes.
Variables (sens norm : bool).
Notation eq := (char_eq sens norm).
Notation o := (opts_new sens norm).

Lemma first_from_scan c off ch : cand_ok c -> off <= length (cand_slice c) ->
  takes (find_first_from_tm c off ch (o_is_case_sensitive o) (o_char_eq o)) (fun r n =>
    match find_idx (eq ch) (skipn off (cand_slice c)) with
    | Some i => r = Some (i + off) /\ n = S i /\ ascii_cand c && negb (is_ascii ch) = false
    | None => r = None /\ n = if ascii_cand c && negb (is_ascii ch) then 0 else length (cand_slice c) - off
    end).
Proof.
  intros Hc Ho. pose proof (find_first_from_spec sens norm c off ch Hc Ho) as E.
  eapply takes_weaken; [eapply takes_same; [apply find_first_from_same|]|].
  { pose proof (first_from_missed c off ch (o_is_case_sensitive o) (o_char_eq o)) as H1.
    pose proof (first_from_takes c off ch (o_is_case_sensitive o) (o_char_eq o)) as H2.
    unfold takes, runs in *. instantiate (1 := fun r n => match r with
      | Some x => n = x + 1 - off
      | None => n = if ascii_cand c && negb (is_ascii ch) then 0 else cand_char_len c - off end).
    destruct (fst _) as [[x|]| |]; [tauto|exact H1|exact I..]. }
  cbn [o_is_case_sensitive o_char_eq opts_new]. intros r n [E' H]. rewrite E in E'. injection E' as <-.
  destruct (find_idx (eq ch) (skipn off (cand_slice c))) as [i|] eqn:F; cbn [option_map] in H.
  - split; [reflexivity|]. split; [lia|]. destruct c as [l|l]; [|reflexivity]. cbn [ascii_cand andb].
    destruct (is_ascii ch) eqn:A; [reflexivity|]. exfalso. cbn [cand_slice] in F. rewrite (high_find_idx sens norm) in F; [discriminate| |].
    + unfold is_ascii in A. lia.
    + apply ascii_skipn. exact Hc.
  - split; [reflexivity|]. rewrite <- cand_slice_len in H. exact H.
Qed.

Lemma forward_scan c : cand_ok c -> forall ps x e, e <= length (cand_slice c) ->
  takes (forward_loop_tm c o x ps e) (fun _ n => n = scan eq (ascii_cand c) (x :: ps) (skipn e (cand_slice c))).
Proof.
  intros Hc. induction ps as [|y ps IH]; intros x e He; cbn [forward_loop_tm]; apply takes_spend, takes_bind;
    (eapply takes_weaken; [apply first_from_scan; assumption|]); intros r n; cbn [scan];
    destruct (find_idx (eq x) (skipn e (cand_slice c))) as [i|] eqn:F.
  - intros (-> & -> & ->). apply takes_ok. lia.
  - intros (-> & ->). apply takes_ok. rewrite skipn_length. destruct (_ && _); lia.
  - intros (-> & -> & ->). apply find_idx_lt in F. rewrite skipn_length in F. eapply takes_weaken; [apply IH; lia|].
    intros z k ->. rewrite skipn_skipn. replace (e + S i) with (i + e + 1) by lia. cbn [scan]. lia.
  - intros (-> & ->). apply takes_ok. rewrite skipn_length. destruct (_ && _); lia.
Qed.

Lemma matches_scan p c : cand_ok c -> forall fuel i k offs, i < p_char_len p -> k <= length (cand_slice c) ->
  takes (matches_loop_tm p c o fuel i k offs)
    (fun _ n => n = scan eq (ascii_cand c) (skipn i (p_text p)) (skipn k (cand_slice c))).
Proof.
  intros Hc. induction fuel as [|fuel IH]; intros i k offs Hi Hk; cbn [matches_loop_tm]; [exact I|].
  apply takes_spend, takes_pure. intros x Ex. apply idx_inv in Ex. rewrite (skipn_cons_nth _ _ _ _ Ex). cbn [scan].
  apply takes_bind. eapply takes_weaken; [apply first_from_scan; assumption|]. intros r n.
  destruct (find_idx (eq x) (skipn k (cand_slice c))) as [j|] eqn:F.
  - intros (-> & -> & ->). apply find_idx_lt in F. rewrite skipn_length in F. apply takes_pure. intros offs' _. cbv zeta.
    unfold p_char_len in *. destruct (Nat.ltb_spec (i + 1) (length (p_text p))) as [L|L].
    + eapply takes_weaken; [apply IH; lia|]. intros z m ->. rewrite skipn_skipn. replace (i + 1) with (S i) by lia.
      replace (k + S j) with (j + k + 1) by lia. lia.
    + apply takes_ok. assert (skipn (S i) (p_text p) = []) as -> by (apply skipn_all2; lia). cbn [scan]. lia.
  - intros (-> & ->). apply takes_ok. rewrite skipn_length. destruct (_ && _); lia.
Qed.

Lemma greedy_end_le e t l k gs : greedy e t l k = Some gs -> k <= match gs with [] => k | _ => S (last gs 0) end.
Proof.
  intros G. destruct gs as [|g gs]; [lia|]. assert (B : Forall (le k) (g :: gs)).
  { apply greedy_sound in G as [_ G]. remember (g :: gs) as qs eqn:E. clear E.
    induction G as [|? ? ? ? [A _] _ IH]; constructor; assumption. }
  rewrite Forall_forall in B. specialize (B (last (g :: gs) 0)). lapply B; [lia|].
  clear. revert g. induction gs as [|h gs IH]; intros g; [left; reflexivity|]. right. apply IH.
Qed.

(** The first characters, [done], are found, and [x] is not. *)
Lemma scan_missed asc x rest : forall done l k fs, (asc = true -> str_is_ascii l = true) ->
  greedy eq done l k = Some fs ->
  (forall j y, (match fs with [] => k | _ => S (last fs 0) end) <= j -> nth_error l (j - k) = Some y -> eq x y = false) ->
  scan eq asc (done ++ x :: rest) l + k
  = S (length done) + if asc && negb (is_ascii x) then (match fs with [] => k | _ => S (last fs 0) end) else length l + k.
Proof.
  induction done as [|y done IH]; intros l k fs Ha G Hx.
  - rewrite greedy_nil in G. injection G as <-. cbn [app scan length]. destruct (asc && negb (is_ascii x)); [lia|].
    assert (find_idx (eq x) l = None) as ->; [|lia]. apply find_idx_none. intros z Hz. apply In_nth_error in Hz as [j Hz].
    apply (Hx (k + j)); [lia|]. replace (k + j - k) with j by lia. exact Hz.
  - rewrite greedy_find in G. cbn [app scan length]. destruct (find_idx (eq y) l) as [i|] eqn:F; [|discriminate].
    assert (asc && negb (is_ascii y) = false) as ->.
    { destruct asc; [|reflexivity]. cbn [andb]. destruct (is_ascii y) eqn:A; [reflexivity|]. exfalso.
      rewrite (high_find_idx sens norm) in F; [discriminate| |apply Ha; reflexivity]. unfold is_ascii in A. lia. }
    destruct (greedy eq done (skipn (S i) l) (S (k + i))) as [gs|] eqn:G'; [|discriminate]. injection G as <-.
    assert (Hl : match gs with [] => S (k + i) | _ => S (last gs 0) end = S (last (k + i :: gs) 0)) by (destruct gs; reflexivity).
    apply find_idx_lt in F. specialize (IH (skipn (S i) l) (S (k + i)) gs). rewrite Hl in IH.
    lapply IH; [clear IH; intros IH|intros E; apply ascii_skipn, Ha, E]. specialize (IH G').
    lapply IH; [clear IH; intros IH|].
    + rewrite skipn_length in IH. cbv iota. destruct (asc && negb (is_ascii x)); lia.
    + intros j z Hj Hz. apply (Hx j z Hj). rewrite nth_error_skipn in Hz. rewrite <- Hz. f_equal.
      rewrite <- Hl in Hj. pose proof (greedy_end_le _ _ _ _ _ G'). lia.
Qed.

Lemma greedy_missed x rest : forall done l k fs, greedy eq done l k = Some fs ->
  (forall j y, (match fs with [] => k | _ => S (last fs 0) end) <= j -> nth_error l (j - k) = Some y -> eq x y = false) ->
  greedy eq (done ++ x :: rest) l k = None.
Proof.
  induction done as [|y done IH]; intros l k fs G Hx.
  - rewrite greedy_nil in G. injection G as <-. cbn [app]. rewrite greedy_find.
    assert (find_idx (eq x) l = None) as ->; [|reflexivity]. apply find_idx_none. intros z Hz. apply In_nth_error in Hz as [j Hz].
    apply (Hx (k + j)); [lia|]. replace (k + j - k) with j by lia. exact Hz.
  - rewrite greedy_find in G. cbn [app]. rewrite greedy_find. destruct (find_idx (eq y) l) as [i|] eqn:F; [|discriminate].
    destruct (greedy eq done (skipn (S i) l) (S (k + i))) as [gs|] eqn:G'; [|discriminate]. injection G as <-.
    assert (Hl : match gs with [] => S (k + i) | _ => S (last gs 0) end = S (last (k + i :: gs) 0)) by (destruct gs; reflexivity).
    rewrite (IH _ _ gs G'); [reflexivity|]. rewrite Hl. intros j z Hj Hz. apply (Hx j z Hj). rewrite nth_error_skipn in Hz. rewrite <- Hz. f_equal.
    rewrite <- Hl in Hj. pose proof (greedy_end_le _ _ _ _ _ G'). lia.
Qed.

End Modes.

(** * Fuzzy terms *)

Definition cand_of (c : str) : candidate := if str_is_ascii c then Ascii (encode c) else Unicode c.

Lemma cand_of_slice c : cand_slice (cand_of c) = c /\ cand_ok (cand_of c) /\ ascii_cand (cand_of c) = forallb is_ascii c.
Proof.
  unfold cand_of. change (forallb is_ascii c) with (str_is_ascii c). destruct (str_is_ascii c) eqn:E; cbn [cand_slice cand_ok ascii_cand].
  - rewrite ascii_encode by exact E. auto.
  - auto.
Qed.

Lemma read_cand St (alloc : St -> str -> timed (list char * St)) (room : St -> nat) st c x :
  (forall st c, takes (alloc st c) (fun x n => fst x = c /\ n = growth (room st) (byte_len c) + length c)) ->
  fst (if str_is_ascii c then lift (Ok (Ascii (encode c), st))
       else let! '(chars, st) := alloc st c in lift (Ok (Unicode chars, st))) = Ok x -> fst x = cand_of c.
Proof.
  intros H. unfold cand_of. destruct (str_is_ascii c); [intros E; injection E as <-; reflexivity|].
  rewrite fst_tbind. intros E. apply ok_bind in E as ([l st'] & E & E'). injection E' as <-.
  destruct (takes_get _ _ _ _ (H st c) E) as [E1 _]. cbn [fst] in E1 |- *. rewrite E1. reflexivity.
Qed.

(** What a fuzzy term costs; [sizes] are the lengths of the other vectors. *)
Definition fuzzy_cost (a : algo) (o : options) (sizes : list nat) (text c : str) : nat :=
  let sens := sensitive_for (opt_case o) text in
  let missed := scan (char_eq sens (opt_norm o)) (forallb is_ascii c) text c in
  let h := length text in
  match a with
  | AlgoV1 =>
      match v1_positions sens (opt_norm o) text c with
      | Some js => 2 * h + S (last js 0) + 2 * (S (last js 0) - hd 0 js)
      | None => missed
      end
  | AlgoV2 =>
      match text with
      | [x] => length c + length (filter (char_eq sens (opt_norm o) x) c)
      | _ =>
          match greedy (char_eq sens (opt_norm o)) text c 0, last_col sens (opt_norm o) text c with
          | Some fs, Some stop =>
              let w := stop + 1 - hd 0 fs in
              growth (nth 2 sizes 0) h + growth (nth 0 sizes 0) w + growth (nth 3 sizes 0) (h * w) + growth (nth 1 sizes 0) (h * w)
              + (3 * h - 1) + S (last fs 0) + (length c - stop) + w + 2 * (h * w) + 2 * list_sum (map (fun f => stop + 1 - f) fs)
          | _, _ => growth (nth 2 sizes 0) h + missed
          end
      end
  end.

Lemma v1_term_takes o st t c r : v1_inv o st -> t_text t <> [] ->
  takes (v1_fuzzy_tm st (pat_of t) (cand_of c) r) (fun _ n => n = fuzzy_cost AlgoV1 o (tl (buffers (V1 st))) (t_text t) c).
Proof.
  intros (H1 & H2 & _) Ht. destruct (cand_of_slice c) as (S1 & S2 & S3). unfold fuzzy_cost.
  destruct (v1_positions _ _ _ _) as [js|] eqn:E.
  - pose proof (v1_fuzzy_takes st (pat_of t) (cand_of c) r js S2 Ht) as T. rewrite is_sensitive_pat, H1, H2, S1 in T. exact (T E).
  - unfold v1_fuzzy_tm. cbv zeta. rewrite is_sensitive_pat, H1, H2. set (sens := sensitive_for _ _) in *.
    assert (G : greedy (char_eq sens (opt_norm o)) (t_text t) c 0 = None).
    { destruct (greedy (char_eq sens (opt_norm o)) (t_text t) c 0) as [fs|] eqn:G; [|reflexivity]. exfalso.
      destruct (v1_window _ _ _ _ _ Ht G) as (u & ps' & _ & _ & _ & E2 & _). rewrite E in E2. discriminate E2. }
    apply takes_bind. eapply takes_weaken; [eapply (takes_same _ _ _ (fun _ n => n = scan (char_eq sens (opt_norm o)) (ascii_cand (cand_of c))
      (t_text t) (cand_slice (cand_of c)))); [apply forward_pass_same|]|].
    + unfold forward_pass_tm. change (p_text (pat_of t)) with (t_text t). destruct (t_text t) as [|x u] eqn:Et; [congruence|].
      apply (forward_scan sens (opt_norm o) (cand_of c) S2 u x 0). lia.
    + intros [e|] n [E1 ->]; rewrite forward_pass_spec in E1 by assumption; change (p_text (pat_of t)) with (t_text t) in E1;
        rewrite S1, G in E1; [discriminate E1|].
      apply takes_ok. rewrite S1, S3. lia.
Qed.

Lemma v2_term_takes o st t c r : v2_inv o st -> t_text t <> [] ->
  takes (v2_fuzzy_tm st (pat_of t) (cand_of c) r) (fun _ n => n = fuzzy_cost AlgoV2 o (tl (buffers (V2 st))) (t_text t) c).
Proof.
  intros (H1 & H2 & _) Ht. destruct (cand_of_slice c) as (S1 & S2 & S3). unfold fuzzy_cost.
  destruct (t_text t) as [|x [|y u]] eqn:Et; [congruence|..].
  - pose proof (v2_single_takes st (pat_of t) (cand_of c) r x S2 Et) as T. rewrite is_sensitive_pat, H1, H2, S1, Et in T.
    eapply takes_weaken; [exact T|]. intros z n ->. rewrite <- cand_slice_len, S1. reflexivity.
  - rewrite <- Et in *. assert (Hh : p_char_len (pat_of t) <> 1) by (unfold p_char_len; change (p_text (pat_of t)) with (t_text t); rewrite Et; discriminate).
    set (sens := sensitive_for (opt_case o) (t_text t)) in *. clear x y u Et.
    destruct (greedy _ _ c 0) as [fs|] eqn:G; [destruct (last_col _ _ _ _) as [stop|] eqn:L|].
    + pose proof (v2_fuzzy_takes st (pat_of t) (cand_of c) r fs stop) as T. cbv zeta in T. rewrite is_sensitive_pat, H1, H2, S1 in T.
      specialize (T S2 Ht Hh G L). eapply takes_weaken; [exact T|]. intros z n ->. cbn [buffers tl nth]. rewrite !resize_growth.
      rewrite <- cand_slice_len, S1. reflexivity.
    + exfalso. destruct (last_col_ge _ _ _ _ _ Ht (greedy_sound _ _ _ _ _ G)) as (j & Ej & _). rewrite L in Ej. discriminate Ej.
    + unfold v2_fuzzy_tm. cbv zeta. destruct (Nat.eqb_spec (p_char_len (pat_of t)) 1) as [?|_]; [congruence|].
      rewrite is_sensitive_pat, H1, H2. fold sens. apply takes_bind.
      eapply takes_weaken; [eapply (takes_same _ _ _ (fun r n => fst r = None -> n = growth (length (s_indices (v2_slab_ st))) (length (t_text t))
        + scan (char_eq sens (opt_norm o)) (ascii_cand (cand_of c)) (t_text t) (cand_slice (cand_of c)))); [apply v2_matches_same|]|].
      * unfold v2_matches_tm, indices_alloc_tm. apply takes_bind, takes_spend, takes_lift. intros [offs sl] _. apply takes_bind.
        eapply takes_weaken; [apply (matches_scan sens (opt_norm o) (pat_of t) (cand_of c) S2); [|lia]|].
        { unfold p_char_len. change (p_text (pat_of t)) with (t_text t). destruct (t_text t); [congruence|cbn; lia]. }
        intros [[i|] offs'] n ->; cbv zeta.
        -- apply takes_pure. intros z _. apply takes_bind. eapply takes_weaken; [apply last_takes|].
           intros f k _. apply takes_pure. intros l _. apply takes_ok. discriminate.
        -- apply takes_ok. intros _. rewrite resize_growth. change (p_text (pat_of t)) with (t_text t). cbn [skipn].
           change (p_char_len (pat_of t)) with (length (t_text t)). lia.
      * intros [q ix] n [E1 H]. destruct (v2_matches_spec sens (opt_norm o) (s_indices (v2_slab_ st)) (pat_of t) (cand_of c) S2 Ht) as (sl & E2 & _).
        change (p_text (pat_of t)) with (t_text t) in E2. rewrite S1, G in E2. rewrite E2 in E1. injection E1 as <- <-.
        apply takes_ok. rewrite H by reflexivity. rewrite S1, S3. cbn [buffers tl nth]. lia.
Qed.

(** * Queries *)
Lemma under_maxes a b c : under (maxes a b) c -> under a c /\ under b c.
Proof. intros H. split; (eapply under_trans; [|exact H]); [apply under_l|apply under_r]. Qed.

Lemma tl_maxes a b : tl (maxes a b) = maxes (tl a) (tl b).
Proof. destruct a as [|x a], b as [|y b]; cbn [maxes tl]; rewrite ?maxes_nil_r; try reflexivity. destruct b; reflexivity. Qed.

Section Trait.
Context {St : Type}.
Variables (st_char_eq : St -> pattern -> char_eq_fn) (st_scheme : St -> scheme)
  (fuzzy : bool -> St -> pattern -> candidate -> mranges -> res (option score * St * mranges))
  (fuzzy_tm : St -> pattern -> candidate -> mranges -> timed (option score * St * mranges)).
Variables (a : algo) (o : options) (Inv : St -> Prop).
Hypothesis Heq : forall st t, Inv st ->
  st_char_eq st (pat_of t) = char_eq (sensitive_for (opt_case o) (t_text t)) (opt_norm o).
Hypothesis Hsch : forall st, Inv st -> st_scheme st = into_inner (opt_scheme o).
Hypothesis Hfuzzy : forall (R : bool) st t c pre own,
  Inv st -> cand_ok c -> t_text t <> [] -> chain 0 own ->
  exists st', Inv st' /\ fuzzy R st (pat_of t) c (mk pre own)
    = Ok (match fuzzy_outcome a o (t_text t) (cand_slice c) with
          | None => (None, st', mk pre own)
          | Some (sc, rs) => (Some sc, st', mk pre (if R then inserts own rs else own))
          end).
Variables (size : St -> list nat) (fneed : str -> str -> list nat).
Hypothesis Hsize : forall (R : bool) st t c pre own x st' r,
  Inv st -> cand_ok c -> t_text t <> [] -> chain 0 own ->
  fuzzy R st (pat_of t) c (mk pre own) = Ok (x, st', r) ->
  size st' = maxes (size st) (fneed (t_text t) (cand_slice c)).
Hypothesis Hsame : forall st p c r, fst (fuzzy_tm st p c r) = fuzzy false st p c r.
Hypothesis Hcost : forall st t c r, Inv st -> t_text t <> [] ->
  takes (fuzzy_tm st (pat_of t) (cand_of c) r) (fun _ n => n = fuzzy_cost a o (tl (size st)) (t_text t) c).
Variables (c : str) (B : list nat) (same : str -> char -> char -> bool) (holds : term -> bool).
Hypothesis Hsame' : forall text x y, same text x y = char_eq (sensitive_for (opt_case o) text) (opt_norm o) x y.

Definition term_cost (t : term) : nat :=
  match t_kind t with
  | KFuzzy => fuzzy_cost a o B (t_text t) c
  | k => word_cost (same (t_text t)) (opt_scheme o) k (t_text t) c
  end.

Lemma score_takes st t r : Inv st -> tl (size st) = B -> t_text t <> [] ->
  takes (fzf_score_tm st_char_eq st_scheme fuzzy_tm st (pat_of t) (cand_of c) r) (fun _ n => n = term_cost t).
Proof.
  intros HI Hb Ht. destruct (cand_of_slice c) as (S1 & S2 & _). unfold fzf_score_tm. cbv zeta. apply takes_bind.
  eapply takes_weaken with (P := fun _ n => n = term_cost t).
  2:{ intros [[sc st'] r'] n ->. destruct sc, (p_is_inverse _); apply takes_ok; lia. }
  change (p_match_type (pat_of t)) with (mt_of (t_kind t)). unfold term_cost.
  pose proof (pat_of_ok t) as Hp. rewrite Heq, Hsch by exact HI. set (eq := char_eq _ _). 
  assert (W : forall k, word_cost (same (t_text t)) (opt_scheme o) k (t_text t) c = word_cost eq (opt_scheme o) k (t_text t) c).
  { intros k. apply word_cost_ext. intros. apply Hsame'. }
  destruct (t_kind t); cbn [mt_of]; [rewrite <- Hb; apply Hcost; assumption|..]; rewrite W; apply takes_bind; cbn [word_cost].
  - eapply takes_weaken; [apply (exact_takes eq (opt_scheme o) (pat_of t) c (cand_of c) r S1 Ht)|]. intros [sc r'] n ->. apply takes_ok.
    change (p_text (pat_of t)) with (t_text t). lia.
  - eapply takes_weaken; [apply (prefix_takes eq (into_inner (opt_scheme o)) (pat_of t) (cand_of c) r Hp Ht)|]. intros [sc r'] n ->. apply takes_ok.
    rewrite S1. change (p_text (pat_of t)) with (t_text t). lia.
  - eapply takes_weaken; [apply (suffix_takes eq (into_inner (opt_scheme o)) (pat_of t) (cand_of c) r Hp Ht)|]. intros [sc r'] n ->. apply takes_ok.
    rewrite S1. change (p_text (pat_of t)) with (t_text t). lia.
  - eapply takes_weaken; [apply (equal_takes eq (into_inner (opt_scheme o)) (pat_of t) (cand_of c) r Hp Ht)|]. intros [sc r'] n ->. apply takes_ok.
    rewrite S1. change (p_text (pat_of t)) with (t_text t). lia.
Qed.

Notation accepted t := (holds t = match term_outcome a o t c with Some _ => true | None => false end).

Lemma condition_takes : forall g st,
  Forall (fun t => t_text t <> []) g -> Forall (fun t => accepted t) g -> Inv st -> tl (size st) = B -> 
  under (tl (either_need a o fneed g c)) B ->
  takes (score_condition_tm st_char_eq st_scheme fuzzy_tm st (map pat_of g) (cand_of c) (mk [] []))
    (fun _ n => n = condition_cost term_cost holds g).
Proof.
  destruct (cand_of_slice c) as (S1 & S2 & _).
  induction g as [|t g IH]; intros st Hg Hh HI Hb Hu; cbn [map score_condition_tm condition_cost]; [apply takes_ok; reflexivity|].
  apply Forall_cons_iff in Hg as [Ht Hg']. apply Forall_cons_iff in Hh as [Ha Hh'].
  apply takes_spend, takes_bind.
  eapply takes_weaken; [eapply takes_same; [apply (fzf_score_same _ _ fuzzy _ Hsame)|apply score_takes; auto]|].
  intros [[sc st'] r'] n [E ->].
  destruct (fzf_score_spec st_char_eq st_scheme fuzzy a o Inv Heq Hsch Hfuzzy false st t (cand_of c) [] [] HI S2 Ht I) as (st1 & HI1 & E1).
  pose proof E as E0. rewrite E1, S1 in E0. cbn [either_need] in Hu. rewrite tl_maxes in Hu. apply under_maxes in Hu as [Hu1 Hu2].
  rewrite Ha. destruct (term_outcome a o t c) as [[x rs]|].
  - assert (sc = Some x) as -> by congruence. apply takes_ok. lia.
  - assert (sc = None /\ st1 = st' /\ r' = mk [] []) as (-> & -> & ->) by (repeat split; congruence).
    pose proof (score_sizes st_char_eq st_scheme fuzzy Inv size fneed Hsize false st t (cand_of c) [] [] _ _ _ HI S2 Ht I E) as Sz.
    eapply takes_weaken; [apply IH; auto|].
    + rewrite Sz, tl_maxes, S1, maxes_comm, Hb. exact Hu1.
    + intros z k ->. lia.
Qed.

Lemma conditions_takes : forall q st total,
  texts_ok q -> Forall (Forall (fun t => accepted t)) q -> Inv st -> tl (size st) = B ->
  under (tl (all_need a o fneed q c)) B ->
  takes (score_conditions_tm st_char_eq st_scheme fuzzy_tm st (map (map pat_of) q) (cand_of c) total (mk [] []))
    (fun _ n => n = conditions_cost term_cost holds q).
Proof.
  destruct (cand_of_slice c) as (S1 & S2 & _).
  induction q as [|g q IH]; intros st total Hq Hh HI Hb Hu; cbn [map score_conditions_tm conditions_cost]; [apply takes_ok; reflexivity|].
  apply Forall_cons_iff in Hq as [Hg Hq']. apply Forall_cons_iff in Hh as [Ha Hh'].
  cbn [all_need] in Hu. rewrite tl_maxes in Hu. apply under_maxes in Hu as [Hu1 Hu2].
  apply takes_spend, takes_bind.
  eapply takes_weaken; [eapply takes_same; [apply (score_condition_same _ _ fuzzy _ Hsame)|apply condition_takes; auto]|].
  intros [[sc st'] r'] n [E ->].
  destruct (score_condition_spec st_char_eq st_scheme fuzzy a o Inv Heq Hsch Hfuzzy false (cand_of c) [] S2 g st [] Hg HI I) as (st1 & HI1 & E1).
  pose proof E as E0. rewrite E1, S1 in E0.
  assert (Hx : existsb holds g = match either_outcome a o g c with Some _ => true | None => false end).
  { clear - Ha. induction Ha as [|t g Ha _ IH]; [reflexivity|]. cbn [existsb either_outcome]. rewrite Ha.
    destruct (term_outcome a o t c) as [[]|]; [reflexivity|exact IH]. }
  rewrite Hx. destruct (either_outcome a o g c) as [[x rs]|].
  - assert (sc = Some x /\ st1 = st' /\ r' = mk [] []) as (-> & -> & ->) by (repeat split; congruence).
    pose proof (condition_sizes st_char_eq st_scheme fuzzy a o Inv Heq Hsch Hfuzzy size fneed Hsize false (cand_of c) [] S2 g st [] _ _ _ Hg HI I E) as Sz.
    eapply takes_weaken; [apply IH; auto|].
    + rewrite Sz, tl_maxes, S1, maxes_comm, Hb. exact Hu1.
    + intros z k ->. lia.
  - assert (sc = None) as -> by congruence. apply takes_ok. lia.
Qed.

End Trait.

Lemma v1_read_size st c x : fst (if str_is_ascii c then lift (Ok (Ascii (encode c), st))
         else let! '(chars, st) := v1_alloc_chars_tm st c in lift (Ok (Unicode chars, st))) = Ok x ->
  v1_scoring_scheme (snd x) = v1_scoring_scheme st.
Proof.
  destruct (str_is_ascii c); [intros E; injection E as <-; reflexivity|].
  rewrite fst_tbind. intros E. apply ok_bind in E as ([l st'] & E & E'). injection E' as <-.
  unfold v1_alloc_chars_tm in E. rewrite fst_tbind in E. apply ok_bind in E as ([l' sl] & _ & E). injection E as _ <-. reflexivity.
Qed.

Lemma v2_read_size st c x : fst (if str_is_ascii c then lift (Ok (Ascii (encode c), st))
         else let! '(chars, st) := v2_alloc_chars_tm st c in lift (Ok (Unicode chars, st))) = Ok x ->
  v2_scoring_scheme (snd x) = v2_scoring_scheme st.
Proof.
  destruct (str_is_ascii c); [intros E; injection E as <-; reflexivity|].
  rewrite fst_tbind. intros E. apply ok_bind in E as ([l st'] & E & E'). injection E' as <-.
  unfold v2_alloc_chars_tm in E. rewrite fst_tbind in E. apply ok_bind in E as ([l' sl] & _ & E). injection E as _ <-. reflexivity.
Qed.

(** A lone fuzzy term. *)
Lemma alone_takes a o m text c : has_options a o m -> text <> [] ->
  takes (metric_distance_tm m (NotExtended (pat_of (Term false KFuzzy text))) c)
    (fun _ n => n = reading_cost (hd 0 (buffers m)) c + fuzzy_cost a o (tl (buffers m)) text c).
Proof.
  intros Hm Ht.
  assert (Hq0 : q_is_empty (NotExtended (pat_of (Term false KFuzzy text))) = false) by (destruct text; [congruence|reflexivity]).
  destruct a, m as [v|v]; try contradiction; destruct Hm as (O1 & O2 & O3); cbn [metric_distance_tm]; apply takes_bind; unfold fzf_distance_tm;
    rewrite Hq0; apply takes_spend, takes_bind.
  - eapply takes_weaken; [exact (takes_same _ _ _ _ eq_refl (reading_takes _ _ (fun st => length (v1_candidate_slab st)) v c v1_alloc_takes))|].
    intros [cd st] n (Es & Hok & Hsl & Hn). pose proof (read_cand _ _ _ _ _ _ v1_alloc_takes Es) as Ec. cbn [fst] in Ec. subst cd.
    pose proof (v1_read_size _ _ _ Es) as S3. apply v1_read_same in Es. cbn [fst snd] in *. destruct Es as [S1 S2].
    unfold fzf_search_tm. cbv zeta. apply takes_bind.
    eapply takes_weaken; [apply (v1_term_takes o st (Term false KFuzzy text)); [|exact Ht]|].
    { split; [congruence|]. split; congruence. }
    intros [[sc st'] r'] k ->. apply takes_ok. apply takes_ok. cbn [buffers hd tl t_text]. lia.
  - eapply takes_weaken; [exact (takes_same _ _ _ _ eq_refl (reading_takes _ _ (fun st => length (v2_candidate_slab st)) v c v2_alloc_takes))|].
    intros [cd st] n (Es & Hok & Hsl & Hn). pose proof (read_cand _ _ _ _ _ _ v2_alloc_takes Es) as Ec. cbn [fst] in Ec. subst cd.
    pose proof (v2_read_size _ _ _ Es) as S4. apply v2_read_same in Es. cbn [fst snd] in *. destruct Es as (S1 & S2 & S3).
    unfold fzf_search_tm. cbv zeta. apply takes_bind.
    eapply takes_weaken; [apply (v2_term_takes o st (Term false KFuzzy text)); [|exact Ht]|].
    { split; [congruence|]. split; congruence. }
    intros [[sc st'] r'] k ->. apply takes_ok. apply takes_ok. cbn [buffers hd tl t_text]. rewrite S3. lia.
Qed.

Lemma alone_steps a o m text c : has_options a o m -> text <> [] ->
  distance_steps m (NotExtended (pat_of (Term false KFuzzy text))) c
  = reading_cost (hd 0 (buffers m)) c + fuzzy_cost a o (tl (buffers m)) text c.
Proof.
  intros Hm Ht. destruct (metric_raw_spec a o m text c [] Hm) as [(m' & _ & E) _].
  eapply takes_steps; [|exact E]. apply alone_takes; assumption.
Qed.

Lemma query_steps a o m q c d m' same holds :
  has_options a o m -> texts_ok q -> Forall (fun g => g <> []) q -> q <> [] -> (forall neg text, q <> [[Term neg KFuzzy text]]) ->
  (forall text x y, same text x y = char_eq (sensitive_for (opt_case o) text) (opt_norm o) x y) ->
  Forall (Forall (fun t => holds t = match term_outcome a o t c with Some _ => true | None => false end)) q ->
  metric_distance m (query_of q) c = Ok (d, m') -> tl (buffers m') = tl (buffers m) ->
  distance_steps m (query_of q) c
  = reading_cost (hd 0 (buffers m)) c + conditions_cost (term_cost a o c (tl (buffers m)) same) holds q.
Proof.
  intros Hm Hq Hne H0 Hl Hs Hh E Hb. eapply takes_steps; [|exact E].
  pose proof (metric_sizes a o m q c m' Hm Hq Hne (sr_distance _ _ _ _ _ E)) as Sz.
  assert (U : under (tl (all_need a o (fuzzy_need a o) q c)) (tl (buffers m))).
  { rewrite Sz, tl_maxes, maxes_comm in Hb. unfold metric_need, search_need in Hb. destruct q as [|g q]; [congruence|].
    rewrite tl_maxes in Hb. apply under_maxes in Hb as [_ Hb]. exact Hb. }
  destruct (outcome_cases q) as [(neg & text & ->)|[_ Eq]]; [destruct (Hl neg text eq_refl)|].
  assert (Hq0 : q_is_empty (query_of q) = false).
  { destruct (q_is_empty (query_of q)) eqn:Ee; [|reflexivity]. apply empty_query in Ee; auto. congruence. }
  clear E Sz Hb Hl.
  destruct a, m as [v|v]; try contradiction; destruct Hm as (O1 & O2 & O3); cbn [metric_distance_tm]; apply takes_bind; unfold fzf_distance_tm;
    rewrite Hq0, Eq; apply takes_spend, takes_bind.
  - eapply takes_weaken; [exact (takes_same _ _ _ _ eq_refl (reading_takes _ _ (fun st => length (v1_candidate_slab st)) v c v1_alloc_takes))|].
    intros [cd st] n (Es & Hok & Hsl & Hn). pose proof (read_cand _ _ _ _ _ _ v1_alloc_takes Es) as Ec. cbn [fst] in Ec. subst cd.
    pose proof (v1_read_size _ _ _ Es) as S3. apply v1_read_same in Es. cbn [fst snd] in *. destruct Es as [S1 S2].
    unfold fzf_search_tm. cbv zeta. apply takes_bind. rewrite mk_nil.
    eapply takes_weaken; [apply (conditions_takes v1_char_eq v1_scoring_scheme v1_fuzzy v1_fuzzy_tm AlgoV1 o (v1_inv o)
      (v1_char_eq_ok o) (fun st H => proj2 (proj2 H)) (v1_fuzzy_ok o) (fun st => buffers (V1 st)) (fuzzy_need AlgoV1 o) (v1_size o)
      v1_fuzzy_same (v1_term_takes o) c (tl (buffers (V1 v))) same holds Hs q st); auto|].
    { split; [congruence|]. split; congruence. }
    intros [[sc st'] r'] k ->. apply takes_ok. apply takes_ok. cbn [buffers hd tl]. lia.
  - eapply takes_weaken; [exact (takes_same _ _ _ _ eq_refl (reading_takes _ _ (fun st => length (v2_candidate_slab st)) v c v2_alloc_takes))|].
    intros [cd st] n (Es & Hok & Hsl & Hn). pose proof (read_cand _ _ _ _ _ _ v2_alloc_takes Es) as Ec. cbn [fst] in Ec. subst cd.
    pose proof (v2_read_size _ _ _ Es) as S4. apply v2_read_same in Es. cbn [fst snd] in *. destruct Es as (S1 & S2 & S3).
    unfold fzf_search_tm. cbv zeta. apply takes_bind. rewrite mk_nil.
    eapply takes_weaken; [apply (conditions_takes v2_char_eq v2_scoring_scheme v2_fuzzy v2_fuzzy_tm AlgoV2 o (v2_inv o)
      (v2_char_eq_ok o) (fun st H => proj2 (proj2 H)) (v2_fuzzy_ok o) (fun st => buffers (V2 st)) (fuzzy_need AlgoV2 o) (v2_size o)
      v2_fuzzy_same (v2_term_takes o) c (tl (buffers (V2 v))) same holds Hs q st); auto|].
    { split; [congruence|]. split; congruence. }
    { cbn [buffers tl]. rewrite S3. reflexivity. }
    intros [[sc st'] r'] k ->. apply takes_ok. apply takes_ok. cbn [buffers hd tl]. lia.
Qed.

Lemma condition_cost_ext cost cost' holds g : (forall t, In t g -> cost t = cost' t) ->
  condition_cost cost holds g = condition_cost cost' holds g.
Proof.
  induction g as [|t g IH]; intros H; [reflexivity|]. cbn [condition_cost]. rewrite (H t (or_introl eq_refl)), IH; [reflexivity|].
  intros u Hu. apply H. right. exact Hu.
Qed.

Lemma conditions_cost_ext cost cost' holds q : (forall t, In t (concat q) -> cost t = cost' t) ->
  conditions_cost cost holds q = conditions_cost cost' holds q.
Proof.
  induction q as [|g q IH]; intros H; [reflexivity|]. cbn [conditions_cost concat] in *. rewrite (condition_cost_ext cost cost'), IH; [reflexivity|..];
    intros t Ht; apply H, in_or_app; auto.
Qed.

Lemma same_char_eq o (same : str -> char -> char -> bool) : (forall text x y, same text x y = true <-> agreement o text x y) ->
  forall text x y, same text x y = char_eq (sensitive_for (opt_case o) text) (opt_norm o) x y.
Proof.
  intros H text x y. specialize (H text x y). unfold agreement in H. rewrite <- char_eq_agrees in H.
  destruct (same text x y), (char_eq _ _ x y); try reflexivity; destruct H as [H1 H2]; [symmetry; apply H1; reflexivity|apply H2; reflexivity].
Qed.

Lemma fuzzy_query_exists text : exists q, fuzzy_query text q.
Proof.
  exists (NotExtended (pat_of (Term false KFuzzy text))). pose (ps := MkParser text [] []).
  pose proof (parse_not_extended_correct ps text) as E. cbn [ps_chars ps] in E. rewrite Nat.leb_refl in E.
  exists ps. eexists. right. exact E.
Qed.

Lemma c107_sum : forall a o m ps s q ps' c d m' same holds cost,
  metric_reached a o m -> parse ps s = Ok (q, ps') ->
  parse_spec s <> [] -> (forall neg text, parse_spec s <> [[Term neg KFuzzy text]]) ->
  Forall (Forall (fun t => ~ blank_equal t)) (parse_spec s) ->
  metric_distance m q c = Ok (d, m') -> tl (buffers m') = tl (buffers m) ->
  (forall text x y, same text x y = true <-> agreement o text x y) ->
  (forall t, In t (concat (parse_spec s)) -> (holds t = true <-> term_accepts (opt_case o) (opt_norm o) t c)) ->
  (forall text q1, fuzzy_query text q1 -> text <> [] ->
     distance_steps m q1 c = reading_cost (hd 0 (buffers m)) c + cost text) ->
  distance_steps m q c
  = reading_cost (hd 0 (buffers m)) c
    + conditions_cost (fun t => match t_kind t with
                                | KFuzzy => cost (t_text t)
                                | k => word_cost (same (t_text t)) (opt_scheme o) k (t_text t) c
                                end) holds (parse_spec s).
Proof.
  intros a o m ps s q ps' c d m' same holds cost Hm Hp H0 Hl Hb E Hg Hs Hh Hc.
  pose proof (metric_reached_options _ _ _ Hm) as Ho. destruct (parse_correct ps s) as (p1 & E1 & _).
  assert (q = query_of (parse_spec s)) as -> by congruence. pose proof (parse_spec_ok s) as (T1 & T2).
  rewrite (query_steps a o m (parse_spec s) c d m' same holds Ho T1 T2 H0 Hl (same_char_eq o same Hs)); [|..].
  - f_equal. apply conditions_cost_ext. intros t Ht. unfold term_cost. destruct (t_kind t) eqn:K; try reflexivity.
    assert (Tt : t_text t <> []).
    { apply in_concat in Ht as (g & Hg1 & Hg2). unfold texts_ok in T1. rewrite Forall_forall in T1. specialize (T1 g Hg1).
      rewrite Forall_forall in T1. exact (T1 t Hg2). }
    destruct (fuzzy_query_exists (t_text t)) as [q1 Q1]. specialize (Hc _ _ Q1 Tt). apply fuzzy_query_of in Q1. subst q1.
    rewrite (alone_steps a o m (t_text t) c Ho Tt) in Hc. lia.
  - unfold texts_ok in T1. rewrite Forall_forall in *. intros g Hg1. specialize (T1 g Hg1). specialize (Hb g Hg1). rewrite Forall_forall in *. intros t Ht.
    pose proof (term_outcome_iff o a t c (T1 t Ht) (Hb t Ht)) as I. rewrite <- (Hh t) in I by (apply in_concat; eauto).
    destruct (term_outcome a o t c) as [r|]; [apply I; eauto|]. destruct (holds t); [|reflexivity]. destruct (proj1 I eq_refl). discriminate.
  - exact E.
  - exact Hg.
Qed.

Lemma words_need a o q c : Forall (Forall (fun t => t_kind t <> KFuzzy)) q -> tl (metric_need a o q c) = [].
Proof.
  intros H. assert (A : all_need a o (fuzzy_need a o) q c = []).
  { induction H as [|g q Hg _ IH]; [reflexivity|]. cbn [all_need].
    assert (either_need a o (fuzzy_need a o) g c = []) as ->.
    { induction Hg as [|t g Ht _ IHg]; [reflexivity|]. cbn [either_need]. rewrite IHg. unfold term_need.
      destruct (t_kind t); [congruence|..]; destruct (term_outcome a o t c); reflexivity. }
    destruct (either_outcome a o g c); [rewrite IH|]; reflexivity. }
  unfold metric_need, search_need. rewrite A. destruct q; [reflexivity|]. rewrite maxes_nil_r. destruct (str_is_ascii c); reflexivity.
Qed.

Lemma c107_words : forall a o m ps s q ps' c d m' same holds,
  metric_reached a o m -> parse ps s = Ok (q, ps') -> parse_spec s <> [] ->
  Forall (Forall (fun t => t_kind t <> KFuzzy /\ ~ blank_equal t)) (parse_spec s) ->
  metric_distance m q c = Ok (d, m') ->
  (forall text x y, same text x y = true <-> agreement o text x y) ->
  (forall t, In t (concat (parse_spec s)) -> (holds t = true <-> term_accepts (opt_case o) (opt_norm o) t c)) ->
  distance_steps m q c
  = reading_cost (hd 0 (buffers m)) c
    + conditions_cost (fun t => word_cost (same (t_text t)) (opt_scheme o) (t_kind t) (t_text t) c) holds (parse_spec s).
Proof.
  intros a o m ps s q ps' c d m' same holds Hm Hp H0 Hb E Hs Hh.
  pose proof (metric_reached_options _ _ _ Hm) as Ho. destruct (parse_correct ps s) as (p1 & E1 & _).
  assert (q = query_of (parse_spec s)) as -> by congruence. pose proof (parse_spec_ok s) as (T1 & T2).
  assert (Hk : Forall (Forall (fun t => t_kind t <> KFuzzy)) (parse_spec s)).
  { eapply Forall_impl; [|exact Hb]. intros g. apply Forall_impl. tauto. }
  rewrite (query_steps a o m (parse_spec s) c d m' same holds Ho T1 T2 H0); [|..].
  - f_equal. apply conditions_cost_ext. intros t Ht. unfold term_cost. destruct (t_kind t) eqn:K; try reflexivity.
    exfalso. apply in_concat in Ht as (g & Hg1 & Hg2). rewrite Forall_forall in Hk. specialize (Hk g Hg1).
    rewrite Forall_forall in Hk. exact (Hk t Hg2 K).
  - intros neg text X. rewrite X in Hk. inversion Hk as [|? ? H1 _]; subst. inversion H1 as [|? ? H2 _]; subst. apply H2. reflexivity.
  - exact (same_char_eq o same Hs).
  - unfold texts_ok in T1. rewrite Forall_forall in *. intros g Hg1. specialize (T1 g Hg1). specialize (Hb g Hg1). rewrite Forall_forall in *. intros t Ht.
    pose proof (term_outcome_iff o a t c (T1 t Ht) (proj2 (Hb t Ht))) as I. rewrite <- (Hh t) in I by (apply in_concat; eauto).
    destruct (term_outcome a o t c) as [r|]; [apply I; eauto|]. destruct (holds t); [|reflexivity]. destruct (proj1 I eq_refl). discriminate.
  - exact E.
  - rewrite (metric_sizes a o m (parse_spec s) c m' Ho T1 T2 (sr_distance _ _ _ _ _ E)), tl_maxes, words_need by exact Hk. apply maxes_nil_r.
Qed.

Lemma missed_scan o text x rest done c fs : text = done ++ x :: rest ->
  leftmost (agreement o text) done c fs ->
  (forall j y, (match fs with [] => 0 | _ => S (last fs 0) end) <= j -> nth_error c j = Some y -> ~ agreement o text x y) ->
  greedy (char_eq (sensitive_for (opt_case o) text) (opt_norm o)) text c 0 = None
  /\ scan (char_eq (sensitive_for (opt_case o) text) (opt_norm o)) (forallb is_ascii c) text c
     = S (length done) + if forallb is_ascii c && negb (is_ascii x) then (match fs with [] => 0 | _ => S (last fs 0) end) else length c.
Proof.
  intros Et L Hx. apply leftmost_greedy in L. set (sens := sensitive_for (opt_case o) text) in *. 
  assert (Hx' : forall j y, (match fs with [] => 0 | _ => S (last fs 0) end) <= j -> nth_error c (j - 0) = Some y -> char_eq sens (opt_norm o) x y = false).
  { intros j y Hj Hy. rewrite Nat.sub_0_r in Hy. specialize (Hx j y Hj Hy). destruct (char_eq _ _ x y) eqn:E; [|reflexivity].
    destruct Hx. apply char_eq_agrees. exact E. }
  split.
  - rewrite Et. exact (greedy_missed sens (opt_norm o) x rest done c 0 fs L Hx').
  - pose proof (scan_missed sens (opt_norm o) (forallb is_ascii c) x rest done c 0 fs (fun E => E) L Hx') as S1.
    rewrite <- Et in S1. destruct (_ && _); lia.
Qed.

Lemma c107_missed_v1 : forall o m text done x rest q c fs,
  metric_reached AlgoV1 o m -> fuzzy_query text q -> text = done ++ x :: rest ->
  leftmost (agreement o text) done c fs ->
  (forall j y, (match fs with [] => 0 | _ => S (last fs 0) end) <= j -> nth_error c j = Some y -> ~ agreement o text x y) ->
  distance_steps m q c
  = reading_cost (hd 0 (buffers m)) c + S (length done)
    + if forallb is_ascii c && negb (is_ascii x) then (match fs with [] => 0 | _ => S (last fs 0) end) else length c.
Proof.
  intros o m text done x rest q c fs Hm Hq Et L Hx. apply metric_reached_options in Hm. apply fuzzy_query_of in Hq. subst q.
  assert (Ht : text <> []) by (rewrite Et; destruct done; discriminate).
  destruct (missed_scan o text x rest done c fs Et L Hx) as [G S1].
  rewrite (alone_steps AlgoV1 o m text c Hm Ht). unfold fuzzy_cost.
  assert (v1_positions (sensitive_for (opt_case o) text) (opt_norm o) text c = None) as ->.
  { unfold v1_positions. rewrite G. reflexivity. }
  rewrite S1. lia.
Qed.

Lemma c107_missed_v2 : forall o m text done x rest q c fs,
  metric_reached AlgoV2 o m -> fuzzy_query text q -> text = done ++ x :: rest -> 2 <= length text ->
  leftmost (agreement o text) done c fs ->
  (forall j y, (match fs with [] => 0 | _ => S (last fs 0) end) <= j -> nth_error c j = Some y -> ~ agreement o text x y) ->
  distance_steps m q c
  = reading_cost (hd 0 (buffers m)) c + growth (nth 3 (buffers m) 0) (length text) + S (length done)
    + if forallb is_ascii c && negb (is_ascii x) then (match fs with [] => 0 | _ => S (last fs 0) end) else length c.
Proof.
  intros o m text done x rest q c fs Hm Hq Et H2 L Hx. apply metric_reached_options in Hm. apply fuzzy_query_of in Hq. subst q.
  assert (Ht : text <> []) by (rewrite Et; destruct done; discriminate).
  destruct (missed_scan o text x rest done c fs Et L Hx) as [G S1].
  rewrite (alone_steps AlgoV2 o m text c Hm Ht). unfold fuzzy_cost. rewrite G, S1.
  destruct text as [|y [|z u]]; [congruence|cbn [length] in H2; lia|]. destruct m as [v|v]; [contradiction|]. cbn [buffers tl nth hd]. lia.
Qed.

End WithUnicode.
