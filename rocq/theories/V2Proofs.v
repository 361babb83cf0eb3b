(** The fuzzy search of FzfV2. *)
From Coq Require Import Sorted.
From Verif Require Import Prelude Chars Utils Candidate MatchedRanges Query Scoring Slab Fzf FzfV1 FzfV2
  Spec PreludeProofs CharsProofs NormalizeProofs CandidateProofs MatchedRangesProofs ScoreProofs ExactProofs
  ShapeProofs V1Proofs V2Tables.
Local Open Scope nat_scope.

(** ** matches *)

Section Matches.
Variables (sens norm : bool).
Notation eq := (char_eq sens norm).
Notation o := (opts_new sens norm).

Lemma matches_loop_spec p c : cand_ok c -> forall fuel i k offsets,
  k <= length (cand_slice c) -> i < p_char_len p -> p_char_len p - i < fuel ->
  length offsets = p_char_len p ->
  match greedy eq (skipn i (p_text p)) (skipn k (cand_slice c)) k with
  | Some qs => matches_loop p c o fuel i k offsets
               = Ok (Some (p_char_len p - 1), firstn i offsets ++ qs)
  | None => exists offsets', matches_loop p c o fuel i k offsets = Ok (None, offsets')
  end.
Proof.
  intros Hc. unfold p_char_len. induction fuel as [|fuel IH]; intros i k offsets Hk Hi Hf Ho; [lia|].
  destruct (nth_error (p_text p) i) as [x|] eqn:Ex.
  2:{ apply nth_error_None in Ex. lia. }
  rewrite (skipn_cons_nth _ _ _ _ Ex). cbn [matches_loop]. unfold p_char.
  rewrite (idx_nth_error _ _ _ _ Ex). cbn [bind o_is_case_sensitive o_char_eq opts_new].
  rewrite find_first_from_spec by auto. cbn [bind]. rewrite greedy_find.
  destruct (find_idx (eq x) (skipn k (cand_slice c))) as [j|] eqn:Ej; cbn [option_map]; [|eauto].
  apply find_idx_lt in Ej. rewrite skipn_length in Ej.
  rewrite set_idx_ok by lia. cbn [bind]. unfold p_char_len.
  assert (Hup : firstn (i + 1) (upd offsets i (j + k)) = firstn i offsets ++ [k + j]).
  { rewrite upd_firstn_skipn by lia. rewrite firstn_app, firstn_firstn, firstn_length.
    replace (Nat.min (i + 1) i) with i by lia. f_equal.
    replace (i + 1 - Nat.min i (length offsets)) with 1 by lia. simpl. rewrite Nat.add_comm. reflexivity. }
  destruct (Nat.ltb_spec (i + 1) (length (p_text p))) as [Hlt|Hge].
  - replace (i + 1) with (S i) in * by lia. specialize (IH (S i) (j + k + 1) (upd offsets i (j + k))).
    rewrite length_upd in IH. lapply IH; [clear IH; intros IH|lia].
    lapply IH; [clear IH; intros IH|lia]. lapply IH; [clear IH; intros IH|lia].
    specialize (IH Ho).
    rewrite skipn_skipn. replace (k + S j) with (j + k + 1) by lia.
    replace (S (k + j)) with (j + k + 1) by lia.
    destruct (greedy eq (skipn (S i) (p_text p)) (skipn (j + k + 1) (cand_slice c)) (j + k + 1)) as [qs|].
    + cbn [option_map]. rewrite IH, Hup, <- app_assoc. reflexivity.
    + cbn [option_map]. exact IH.
  - assert (Hn : skipn (S i) (p_text p) = []) by (apply skipn_all2; lia).
    rewrite Hn, greedy_nil. cbn [option_map].
    replace (length (p_text p) - 1) with i by lia. f_equal. f_equal.
    rewrite <- Hup. symmetry. apply firstn_all2. rewrite length_upd. lia.
Qed.

Lemma put_back_length A (sl vec : list A) : length (put_back sl vec) = Nat.max (length sl) (length vec).
Proof. unfold put_back. rewrite app_length, skipn_length. lia. Qed.

Lemma indices_alloc_spec vec n :
  exists sl vec', indices_alloc vec n = Ok (sl, vec') /\ length sl = n /\ length vec' = Nat.max (length vec) n.
Proof.
  unfold indices_alloc. set (v := if _ <? _ then _ else _).
  assert (Hv : n <= length v).
  { unfold v. destruct (Nat.ltb_spec (length vec) n); [|lia].
    unfold grow. rewrite app_length, repeat_length. lia. }
  rewrite slice_to_ok by assumption. cbn [bind]. eexists _, _. split; [reflexivity|].
  rewrite firstn_length. split; [lia|]. unfold v in *. destruct (Nat.ltb_spec (length vec) n); [|lia].
  unfold grow. rewrite app_length, repeat_length. lia.
Qed.

Lemma matches_loop_length p c o fuel : forall i l off r off',
  matches_loop p c o fuel i l off = Ok (r, off') -> length off' = length off.
Proof.
  induction fuel as [|fuel IH]; intros i l off r off' H; cbn [matches_loop] in H; [discriminate|].
  destruct (p_char p i) as [x| |]; cbn [bind] in H; [|discriminate..].
  destruct (find_first_from _ _ _ _ _) as [[j|]| |]; cbn [bind] in H; [| |discriminate..].
  2:{ injection H as _ <-. reflexivity. }
  unfold set_idx in H. destruct (i <? length off); cbn [bind] in H; [|discriminate].
  destruct (_ <? _).
  - apply IH in H. rewrite H. apply length_upd.
  - injection H as _ <-. apply length_upd.
Qed.

(** The last column: the last position which agrees with the last query char. *)
Definition last_col (p l : list char) : option nat :=
  find_last_idx (eq (last p 0%N)) l.

Lemma Forall2_last (P : char -> nat -> Prop) p qs d d' :
  Forall2 P p qs -> p <> [] -> P (last p d) (last qs d').
Proof.
  induction 1 as [|x j p qs H F IH]; intros Hp; [congruence|].
  destruct F as [|x' j' p' qs' H' F]; [exact H|]. apply IH. discriminate.
Qed.

Lemma last_col_ge p l qs :
  p <> [] -> aligned eq p l 0 qs ->
  exists j, last_col p l = Some j /\ last qs 0 <= j /\ j < length l.
Proof.
  intros Hp [_ F]. apply (Forall2_last _ _ _ 0%N 0) in F; [|exact Hp].
  destruct F as (_ & y & Hy & E). rewrite Nat.sub_0_r in Hy. unfold last_col.
  destruct (find_last_idx (eq (last p 0%N)) l) as [j|] eqn:Ej.
  - exists j. split; [reflexivity|]. apply find_last_idx_some in Ej as (a & Ha & _ & Hno). split.
    + destruct (Nat.le_gt_cases (last qs 0) j) as [|Hlt]; [assumption|].
      rewrite (Hno _ _ Hlt Hy) in E. discriminate.
    + apply nth_error_Some. congruence.
  - exfalso. rewrite find_last_idx_none in Ej. rewrite (Ej y) in E; [discriminate|].
    eapply nth_error_In; eauto.
Qed.

Lemma p_char_last p : p_text p <> [] -> p_char p (p_char_len p - 1) = Ok (last (p_text p) 0%N).
Proof.
  unfold p_char, p_char_len. intros H. apply idx_nth_error.
  induction (p_text p) as [|x t IH]; [congruence|]. destruct t as [|y t]; [reflexivity|].
  specialize (IH ltac:(discriminate)). cbn [length] in *. rewrite Nat.sub_succ, Nat.sub_0_r in *. exact IH.
Qed.

Lemma v2_matches_spec slab p c : cand_ok c -> p_text p <> [] ->
  exists slab',
    v2_matches slab p c o
    = Ok (match greedy eq (p_text p) (cand_slice c) 0, last_col (p_text p) (cand_slice c) with
          | Some fs, Some j => Some (fs, j + 1)
          | _, _ => None
          end, slab')
    /\ length slab' = Nat.max (length slab) (length (p_text p)).
Proof.
  intros Hc Hp. unfold v2_matches.
  destruct (indices_alloc_spec slab (p_char_len p)) as (sl & slab' & E & Hl & Hl'). rewrite E. cbn [bind].
  assert (Hlen : 0 < p_char_len p) by (unfold p_char_len; destruct (p_text p); [congruence|simpl; lia]).
  pose proof (matches_loop_spec p c Hc (S (p_char_len p)) 0 0 sl) as L.
  lapply L; [clear L; intros L|lia]. lapply L; [clear L; intros L|lia].
  lapply L; [clear L; intros L|lia]. specialize (L Hl). cbn [skipn firstn app] in L.
  destruct (greedy eq (p_text p) (cand_slice c) 0) as [fs|] eqn:G.
  - rewrite L. cbn [bind]. rewrite p_char_last by exact Hp.
    cbn [bind o_is_case_sensitive o_char_eq opts_new]. rewrite find_last_spec by exact Hc.
    destruct (last_col_ge _ _ _ Hp (greedy_sound _ _ _ _ _ G)) as (j & Ej & _).
    fold (last_col (p_text p) (cand_slice c)). rewrite Ej. cbn [unwrap bind].
    eexists. split; [reflexivity|]. apply matches_loop_length in L. rewrite put_back_length, L, Hl, Hl'. unfold p_char_len. lia.
  - destruct L as [off L]. rewrite L. cbn [bind].
    eexists. split; [reflexivity|]. apply matches_loop_length in L. rewrite put_back_length, L, Hl, Hl'. unfold p_char_len. lia.
Qed.

End Matches.

(** ** Gaps *)

Lemma first_row_gap_spec f w : forall n col prev pen,
  0 < col -> col + n <= w -> prev = f (col - 1) ->
  (forall k, col <= k < col + n ->
     f k = saturating_sub (f (k - 1)) (if k =? col then pen else GAP_EXTENSION)) ->
  first_row_gap n col (tab 0%Z f col w) prev pen
  = Ok (tab 0%Z f (col + n) w, f (col + n - 1), if n =? 0 then pen else GAP_EXTENSION).
Proof.
  induction n as [|n IH]; intros col prev pen H0 Hw Hp Hf; cbn [first_row_gap].
  - rewrite Nat.add_0_r, Hp. reflexivity.
  - assert (E : saturating_sub prev pen = f col).
    { rewrite Hp, (Hf col) by lia. rewrite Nat.eqb_refl. reflexivity. }
    rewrite E, tab_set by lia. cbn [bind]. rewrite Nat.add_1_r, IH.
    + replace (S col + n) with (col + S n) by lia. cbn [Nat.eqb].
      destruct (n =? 0); reflexivity.
    + lia.
    + lia.
    + f_equal. lia.
    + intros k Hk. rewrite (Hf k) by lia. destruct (Nat.eqb_spec k col); [lia|].
      destruct (k =? S col); reflexivity.
Qed.

Lemma row_gap_spec f w : forall n col pen,
  0 < col -> col + n <= w ->
  (forall k, col <= k < col + n ->
     f k = saturating_sub (f (k - 1)) (if k =? col then pen else GAP_EXTENSION)) ->
  row_gap n col (tab 0%Z f col w) pen
  = Ok (tab 0%Z f (col + n) w, if n =? 0 then pen else GAP_EXTENSION).
Proof.
  induction n as [|n IH]; intros col pen H0 Hw Hf; cbn [row_gap].
  - rewrite Nat.add_0_r. reflexivity.
  - rewrite usub_ok by lia. cbn [bind]. rewrite tab_idx by lia. cbn [bind].
    assert (E : saturating_sub (f (col - 1)) pen = f col).
    { rewrite (Hf col) by lia. rewrite Nat.eqb_refl. reflexivity. }
    rewrite E, tab_set by lia. cbn [bind]. rewrite Nat.add_1_r, IH.
    + replace (S col + n) with (col + S n) by lia. cbn [Nat.eqb].
      destruct (n =? 0); reflexivity.
    + lia.
    + lia.
    + intros k Hk. rewrite (Hf k) by lia. destruct (Nat.eqb_spec k col); [lia|].
      destruct (k =? S col); reflexivity.
Qed.

(** ** The bonus cache *)

Section WithUnicode.
Context {UC : unicode}.

Lemma bonus_alloc_spec vec n :
  exists sl vec', bonus_alloc vec n = Ok (sl, vec') /\ length sl = n
    /\ (forall j b, nth_error sl j = Some b -> b_is_set b = false) /\ length vec' = Nat.max (length vec) n.
Proof.
  unfold bonus_alloc. set (v := if _ <? _ then _ else _).
  assert (Hv : n <= length v).
  { unfold v. destruct (Nat.ltb_spec (length vec) n); [|lia].
    unfold grow. rewrite app_length, repeat_length. lia. }
  rewrite slice_to_ok by assumption. cbn [bind]. eexists _, _. split; [reflexivity|]. split.
  - rewrite map_length, firstn_length. lia.
  - split.
    + intros j b H. rewrite nth_error_map in H. destruct (nth_error (firstn n v) j); [|discriminate].
      injection H as <-. reflexivity.
    + rewrite put_back_length, map_length, firstn_length. unfold v in *. destruct (Nat.ltb_spec (length vec) n); [|lia].
      unfold grow. rewrite app_length, repeat_length. lia.
Qed.

Definition bonus_in (sch : fzf_scheme) (l : list char) (a j : nat) : Z := bonus_of sch l (a + j).

Section Cache.
Variables (sch : fzf_scheme) (l : list char) (a w : nat).
Hypothesis Hw : a + w <= length l.
Notation bon := (bonus_in sch l a).

(** [cv] is the window of [w] chars from [a] on, and what is cached is right. *)
Definition cv_ok (c : candidate) (o : candidate_opts) (cv : candidate_v2) : Prop :=
  cv_base cv = c /\ cand_slice c = firstn w (skipn a l)
  /\ cv_initial_char_class cv = class_before sch l a /\ cv_opts cv = o
  /\ length (cv_bonuses cv) = w
  /\ forall j b, nth_error (cv_bonuses cv) j = Some b -> b_is_set b = true ->
       bonus_value b = bon j.

Lemma bonus_at_spec c o cv j : cv_ok c o cv -> j < w ->
  exists cv', bonus_at cv j (into_inner sch) = Ok (bon j, cv') /\ cv_ok c o cv'.
Proof.
  intros (H1 & H2 & H3 & H4 & H5 & H6) Hj. unfold bonus_at.
  destruct (nth_error (cv_bonuses cv) j) as [b|] eqn:Eb.
  2:{ apply nth_error_None in Eb. lia. }
  rewrite (idx_nth_error _ _ _ _ Eb). cbn [bind].
  destruct (b_is_set b) eqn:Es.
  - rewrite (H6 _ _ Eb Es). exists cv. split; [reflexivity|]. repeat split; auto.
  - rewrite H1, H3, !cand_char_spec.
    assert (Hget : forall k, k < w -> idx (cand_slice c) k = Ok (nth (a + k) l 0%N)).
    { intros k Hk. rewrite H2. apply idx_nth_error. rewrite nth_error_firstn, nth_error_skipn.
      destruct (Nat.ltb_spec k w); [|lia]. apply nth_error_nth'. lia. }
    assert (E : (if j =? 0 then Ok (class_before sch l a)
                 else let* k := usub j 1 in
                      let* x := cand_char c k in Ok (char_class x (into_inner sch)))
                = Ok (class_before sch l (a + j))).
    { destruct (Nat.eqb_spec j 0) as [->|]; [rewrite Nat.add_0_r; reflexivity|].
      rewrite usub_ok by lia. cbn [bind]. rewrite cand_char_spec, Hget by lia. cbn [bind].
      replace (a + j) with (S (a + (j - 1))) by lia. reflexivity. }
    rewrite E. cbn [bind]. rewrite Hget by assumption. cbn [bind].
    rewrite bonus_of_spec. fold (bonus_in sch l a j). rewrite set_idx_ok by lia. cbn [bind].
    assert (Hv : bonus_value (bonus_set (bon j)) = bon j).
    { pose proof (bonus_of_bounds sch l (a + j)). unfold bonus_in, bonus_value, bonus_set. cbn [b_value].
      rewrite Z2N.id by (apply Z.mod_pos_bound; lia). apply Z.mod_small. lia. }
    rewrite Hv. eexists. split; [reflexivity|]. repeat split; cbn; auto.
    + rewrite length_upd. exact H5.
    + intros k b' Hk Hs. rewrite nth_error_upd in Hk.
      destruct (Nat.eqb_spec k j) as [->|]; cbn [andb] in Hk; [|eauto].
      destruct (Nat.ltb_spec j (length (cv_bonuses cv))); [|lia]. injection Hk as <-. exact Hv.
Qed.

End Cache.

End WithUnicode.
