(** The fuzzy search of FzfV1, and the candidate slab. *)
From Coq Require Import Sorted.
From Verif Require Import Prelude Chars Utils Candidate MatchedRanges Query Scoring Slab Fzf FzfV1 Spec
  PreludeProofs CharsProofs NormalizeProofs CandidateProofs MatchedRangesProofs ScoreProofs ExactProofs
  ShapeProofs ParserProofs.
Local Open Scope nat_scope.

(** ** The slab *)

Lemma chars_fill_spec text : forall chars n,
  n + length text <= length chars ->
  chars_fill chars n text = Ok (put chars n text, n + length text).
Proof.
  induction text as [|c text IH]; intros chars n H; simpl in *.
  - rewrite put_nil, Nat.add_0_r. reflexivity.
  - rewrite set_idx_ok by lia. cbn [bind].
    assert (E : upd chars n c = put chars n [c]).
    { unfold put. cbn [length app]. rewrite Nat.add_1_r. apply upd_firstn_skipn. lia. }
    rewrite E, IH.
    + change (n + 1) with (n + length [c]) at 1. rewrite put_put by (simpl; lia).
      f_equal. f_equal. lia.
    + rewrite put_length by (simpl; lia). lia.
Qed.

Lemma candidate_alloc_spec chars text :
  exists chars', candidate_alloc chars text = Ok (text, chars')
    /\ length chars' = Nat.max (length chars) (byte_len text).
Proof.
  unfold candidate_alloc. pose proof (length_le_byte_len text).
  set (v := if _ <? _ then _ else _).
  assert (Hv : length v = Nat.max (length chars) (byte_len text)).
  { unfold v. destruct (Nat.ltb_spec (length chars) (byte_len text)); [|lia].
    unfold grow. rewrite app_length, repeat_length. lia. }
  rewrite chars_fill_spec by lia. cbn [bind].
  rewrite slice_to_ok by (rewrite put_length; lia). cbn [bind].
  change (0 + length text) with (length text).
  assert (E : firstn (length text) (put v 0 text) = text).
  { pose proof (firstn_put_all _ v 0 text) as F. simpl in F. apply F. lia. }
  rewrite E. eexists. split; [reflexivity|]. rewrite put_length; lia.
Qed.

(** ** forward_pass *)

Lemma greedy_find eq x p : forall chars k,
  greedy eq (x :: p) chars k
  = match find_idx (eq x) chars with
    | None => None
    | Some i => option_map (cons (k + i)) (greedy eq p (skipn (S i) chars) (S (k + i)))
    end.
Proof.
  induction chars as [|c chars IH]; intros k; [reflexivity|].
  rewrite greedy_cons. cbn [find_idx]. destruct (eq x c) eqn:E.
  - rewrite Nat.add_0_r. reflexivity.
  - rewrite IH. destruct (find_idx (eq x) chars) as [i|]; [|reflexivity]. cbn [option_map].
    replace (S k + i) with (k + S i) by lia. reflexivity.
Qed.

Section Passes.
Variables (sens norm : bool).
Notation eq := (char_eq sens norm).
Notation o := (opts_new sens norm).

Lemma forward_loop_spec c : cand_ok c -> forall p x k,
  k <= length (cand_slice c) ->
  forward_loop c o x p k
  = Ok (option_map (fun ps => S (last ps 0)) (greedy eq (x :: p) (skipn k (cand_slice c)) k)).
Proof.
  intros Hc. induction p as [|y p IH]; intros x k Hk; cbn [forward_loop o_is_case_sensitive o_char_eq opts_new];
    rewrite find_first_from_spec by auto; cbn [bind]; rewrite greedy_find.
  - destruct (find_idx (eq x) (skipn k (cand_slice c))) as [i|]; [|reflexivity].
    cbn [option_map]. rewrite greedy_nil. cbn. f_equal. f_equal. lia.
  - destruct (find_idx (eq x) (skipn k (cand_slice c))) as [i|] eqn:E; [|reflexivity].
    cbn [option_map]. apply find_idx_lt in E. rewrite skipn_length in E.
    rewrite IH by lia. rewrite skipn_skipn. replace (k + S i) with (S (k + i)) by lia.
    replace (i + k + 1) with (S (k + i)) by lia.
    destruct (greedy eq (y :: p) (skipn (S (k + i)) (cand_slice c)) (S (k + i))) as [ps|] eqn:G; [|reflexivity].
    cbn [option_map]. apply greedy_length in G. destruct ps as [|z ps]; [discriminate|]. reflexivity.
Qed.

Lemma forward_pass_spec p c : cand_ok c -> p_text p <> [] ->
  forward_pass p c o
  = Ok (option_map (fun ps => S (last ps 0)) (greedy eq (p_text p) (cand_slice c) 0)).
Proof.
  intros Hc Hp. unfold forward_pass. destruct (p_text p) as [|x t]; [congruence|].
  rewrite forward_loop_spec by (auto; lia). reflexivity.
Qed.

(** ** backward_pass *)

(** The latest positions of the chars of [rp], each before the one of its predecessor. *)
Fixpoint rightmost (rp l : list char) (e : nat) : option nat :=
  match rp with
  | [] => Some e
  | x :: rp' =>
      match find_last_idx (eq x) (firstn e l) with
      | None => None
      | Some j => rightmost rp' l j
      end
  end.

Lemma backward_loop_spec c : cand_ok c -> forall p x e,
  e <= length (cand_slice c) ->
  backward_loop c o x p e = unwrap (rightmost (x :: p) (cand_slice c) e).
Proof.
  intros Hc. induction p as [|y p IH]; intros x e He; cbn [backward_loop o_is_case_sensitive o_char_eq opts_new];
    rewrite find_last_from_spec by auto; cbn [bind]; cbn [rightmost];
    destruct (find_last_idx (eq x) (firstn e (cand_slice c))) as [j|] eqn:E; try reflexivity.
  cbn [unwrap bind]. apply find_last_idx_some in E as (a & Ha & _).
  rewrite IH; [reflexivity|]. assert (j < length (firstn e (cand_slice c))) by (apply nth_error_Some; congruence).
  rewrite firstn_length in *. lia.
Qed.


Definition desc (rp l : list char) (e : nat) (qs : list nat) : Prop :=
  Forall2 (fun x j => exists y, nth_error l j = Some y /\ eq x y = true) rp qs
  /\ StronglySorted gt qs /\ Forall (fun j => j < e) qs.

Lemma last_cons_default (j : nat) rs e : last (j :: rs) e = last rs j.
Proof.
  revert j e. induction rs as [|a rs IH]; intros j e; [reflexivity|].
  change (last (j :: a :: rs) e) with (last (a :: rs) e). rewrite !IH. reflexivity.
Qed.

Lemma desc_cons x rp l e q qs :
  desc (x :: rp) l e (q :: qs) <->
  (exists y, nth_error l q = Some y /\ eq x y = true) /\ q < e /\ desc rp l q qs.
Proof.
  unfold desc. split.
  - intros (F & S & L). inversion F; inversion S; inversion L; subst. auto.
  - intros (H & Hq & F & S & L). split; [constructor; auto|]. split; constructor; auto.
    eapply Forall_impl; [|exact L]. simpl. intros. lia.
Qed.

Lemma desc_weaken rp l e e' qs : e <= e' -> desc rp l e qs -> desc rp l e' qs.
Proof.
  intros H (F & S & L). split; [exact F|]. split; [exact S|].
  eapply Forall_impl; [|exact L]. simpl. intros. lia.
Qed.

Lemma rightmost_spec l rp : forall e qs, desc rp l e qs ->
  exists rs, rightmost rp l e = Some (last rs e) /\ desc rp l e rs
    /\ forall qs', desc rp l e qs' -> Forall2 le qs' rs.
Proof.
  induction rp as [|x rp IH]; intros e qs H.
  - exists []. split; [reflexivity|]. split.
    + repeat split; constructor.
    + intros qs' (F & _). inversion F. constructor.
  - destruct qs as [|q qs]; [destruct H as [F _]; inversion F|].
    apply desc_cons in H as (Hq & Hqe & H). cbn [rightmost].
    assert (Hbest : forall q, q < e -> (exists y, nth_error l q = Some y /\ eq x y = true) ->
              exists j, find_last_idx (eq x) (firstn e l) = Some j /\ q <= j).
    { clear - sens. intros q Hqe (y & Hy & Ey).
      destruct (find_last_idx (eq x) (firstn e l)) as [j|] eqn:E.
      - exists j. split; [reflexivity|]. apply find_last_idx_some in E as (a & _ & _ & Hno).
        destruct (Nat.le_gt_cases q j) as [|Hlt]; [assumption|].
        rewrite (Hno q y Hlt) in Ey; [discriminate|].
        rewrite nth_error_firstn. destruct (Nat.ltb_spec q e); [exact Hy|lia].
      - exfalso. rewrite find_last_idx_none in E. rewrite (E y) in Ey; [discriminate|].
        apply nth_error_In with (n := q). rewrite nth_error_firstn.
        destruct (Nat.ltb_spec q e); [exact Hy|lia]. }
    destruct (Hbest q Hqe Hq) as (j & Ej & Hqj). rewrite Ej.
    destruct (IH j qs) as (rs & E & Hd & Hmax).
    { apply desc_weaken with (e := q); auto. }
    exists (j :: rs). rewrite last_cons_default. split; [exact E|]. split.
    + apply desc_cons. split; [|split; [|exact Hd]].
      * apply find_last_idx_some in Ej as (a & Ha & Ea & _). exists a. split; [|exact Ea].
        rewrite nth_error_firstn in Ha. destruct (j <? e); [exact Ha|discriminate].
      * apply find_last_idx_some in Ej as (a & Ha & Ea & _).
        rewrite nth_error_firstn in Ha. destruct (Nat.ltb_spec j e); [assumption|discriminate].
    + intros qs' H'. destruct qs' as [|q' qs']; [destruct H' as [F _]; inversion F|].
      apply desc_cons in H' as (Hq' & Hqe' & H').
      destruct (Hbest q' Hqe' Hq') as (j' & Ej' & Hqj'). rewrite Ej in Ej'. injection Ej' as <-.
      constructor; [exact Hqj'|]. apply Hmax. apply desc_weaken with (e := q'); auto.
Qed.

(** Alignments and their mirror images *)
Lemma sorted_rev qs : StronglySorted lt qs <-> StronglySorted gt (rev qs).
Proof.
  assert (G : forall (P Q : nat -> nat -> Prop) l, (forall a b, P a b -> Q b a) ->
              StronglySorted P l -> StronglySorted Q (rev l)).
  { intros P Q l H. induction 1 as [|a l S IH F]; simpl; [constructor|].
    apply ssorted_app; [exact IH|repeat constructor|].
    intros x y Hx [<-|[]]. apply H. rewrite Forall_forall in F. apply F. apply in_rev. exact Hx. }
  split.
  - apply G. intros; lia.
  - intros H. rewrite <- (rev_involutive qs). revert H. apply G. intros; lia.
Qed.

Lemma aligned_desc p l e qs :
  aligned eq p l 0 qs -> Forall (fun j => j < e) qs -> desc (rev p) l e (rev qs).
Proof.
  intros [S F] L. split; [|split].
  - clear S L. induction F as [|x j p qs (_ & y & Hy & E) F IH]; simpl; [constructor|].
    apply Forall2_app; auto. constructor; [|constructor]. rewrite Nat.sub_0_r in Hy. eauto.
  - apply sorted_rev. exact S.
  - apply Forall_rev. exact L.
Qed.

Lemma desc_aligned p l e qs :
  desc (rev p) l e qs -> aligned eq p l 0 (rev qs) /\ Forall (fun j => j < e) (rev qs).
Proof.
  intros (F & S & L). split; [split|].
  - apply sorted_rev. rewrite rev_involutive. exact S.
  - rewrite <- (rev_involutive p). clear S L. induction F as [|x j rp qs' (y & Hy & E) F IH]; simpl; [constructor|].
    apply Forall2_app; auto. constructor; [|constructor]. split; [lia|]. rewrite Nat.sub_0_r. eauto.
  - apply Forall_rev. exact L.
Qed.

Lemma aligned_window p l s n ps :
  aligned eq p (firstn n (skipn s l)) s ps <->
  aligned eq p l 0 ps /\ Forall (fun j => s <= j < s + n) ps.
Proof.
  unfold aligned. split.
  - intros [S F]. split; [split; [exact S|]|].
    + eapply Forall2_imp; [|exact F]. intros x j (Hj & y & Hy & E). split; [lia|]. exists y.
      rewrite nth_error_firstn, nth_error_skipn in Hy.
      destruct (_ <? _); [|discriminate]. replace (s + (j - s)) with j in Hy by lia.
      rewrite Nat.sub_0_r. auto.
    + clear S. induction F as [|x j p ps (Hj & y & Hy & E) F IH]; constructor; auto.
      rewrite nth_error_firstn in Hy. destruct (Nat.ltb_spec (j - s) n); [lia|discriminate].
  - intros [[S F] L]. split; [exact S|]. clear S. induction F as [|x j p ps (Hj & y & Hy & E) F IH]; [constructor|].
    inversion L; subst. constructor; auto. split; [lia|]. exists y. split; [|exact E].
    rewrite nth_error_firstn, nth_error_skipn. destruct (Nat.ltb_spec (j - s) n); [|lia].
    replace (s + (j - s)) with j by lia. rewrite Nat.sub_0_r in Hy. exact Hy.
Qed.

Lemma sorted_hd_last ps : StronglySorted lt ps -> ps <> [] ->
  Forall (fun j => hd 0 ps <= j <= last ps 0) ps.
Proof.
  induction 1 as [|a ps S IH F]; intros H; [congruence|].
  destruct ps as [|b ps]; [repeat constructor; simpl; lia|].
  specialize (IH ltac:(discriminate)). cbn [hd] in *.
  rewrite last_cons_default.
  assert (E : last (b :: ps) a = last (b :: ps) 0) by (rewrite !last_cons_default; reflexivity).
  rewrite E. inversion F; subst. inversion IH; subst.
  constructor; [lia|]. rewrite Forall_forall in *. intros j Hj. specialize (IH j Hj).
  specialize (F j Hj). lia.
Qed.

Lemma Forall2_le_last ps qs : Forall2 le ps qs -> last ps 0 <= last qs 0.
Proof.
  induction 1 as [|a b ps qs H F IH]; [lia|]. rewrite !last_cons_default.
  destruct F; [exact H|]. rewrite !last_cons_default in *. exact IH.
Qed.

Lemma last_in (ps : list nat) d : ps <> [] -> In (last ps d) ps.
Proof.
  induction ps as [|a ps IH]; intros H; [congruence|]. destruct ps; [left; reflexivity|].
  right. apply IH. discriminate.
Qed.

Lemma hd_rev (rs : list nat) d : hd d (rev rs) = last rs d.
Proof.
  induction rs as [|a rs IH]; [reflexivity|]. simpl rev. destruct rs as [|b rs]; [reflexivity|].
  change (last (a :: b :: rs) d) with (last (b :: rs) d). rewrite <- IH.
  destruct (rev (b :: rs)) eqn:E; [|reflexivity].
  apply (f_equal (@length _)) in E. rewrite rev_length in E. discriminate.
Qed.

Lemma last_rev (rs : list nat) d : last (rev rs) d = hd d rs.
Proof. rewrite <- hd_rev, rev_involutive. reflexivity. Qed.

Lemma Forall2_rev_le (ps qs : list nat) : Forall2 le ps qs -> Forall2 le (rev ps) (rev qs).
Proof. induction 1; simpl; [constructor|]. apply Forall2_app; auto. Qed.

(** ** The alignment which V1 scores *)

Definition v1_positions (p l : list char) : option (list nat) :=
  match greedy eq p l 0 with
  | None => None
  | Some fs =>
      match rightmost (rev p) l (S (last fs 0)) with
      | None => None
      | Some s => greedy eq p (firstn (S (last fs 0) - s) (skipn s l)) s
      end
  end.

Lemma aligned_nonempty p l k ps : p <> [] -> aligned eq p l k ps -> ps <> [].
Proof. intros Hp [_ F] ->. inversion F. congruence. Qed.

Lemma aligned_bound p l ps : aligned eq p l 0 ps -> Forall (fun j => j < length l) ps.
Proof.
  intros [_ F]. induction F as [|x j p ps (_ & y & Hy & _) F IH]; constructor; auto.
  rewrite Nat.sub_0_r in Hy. apply nth_error_Some. congruence.
Qed.

Lemma v1_window p l fs : p <> [] -> greedy eq p l 0 = Some fs ->
  exists s ps, let e := S (last fs 0) in
    rightmost (rev p) l e = Some s /\ s < e /\ e <= length l
    /\ v1_positions p l = Some ps
    /\ greedy eq p (firstn (e - s) (skipn s l)) s = Some ps
    /\ aligned eq p l 0 ps /\ hd 0 ps = s /\ last ps 0 = last fs 0
    /\ (forall qs, aligned eq p l 0 qs -> last ps 0 <= last qs 0)
    /\ (forall qs, aligned eq p l 0 qs -> last qs 0 = last ps 0 -> hd 0 qs <= s)
    /\ (forall qs, aligned eq p l 0 qs -> last qs 0 = last ps 0 -> s <= hd 0 qs -> Forall2 le ps qs)
    /\ (exists x p' y w, p = x :: p' /\ firstn (e - s) (skipn s l) = y :: w /\ eq x y = true).
Proof.
  intros Hp G. cbv zeta. set (e := S (last fs 0)).
  assert (Af : aligned eq p l 0 fs) by (apply greedy_sound; exact G).
  assert (Hmin : forall qs, aligned eq p l 0 qs -> last fs 0 <= last qs 0).
  { intros qs H. destruct (greedy_complete _ _ _ _ _ H) as (fs' & G' & Hle).
    rewrite G in G'. injection G' as <-. apply Forall2_le_last. exact Hle. }
  assert (Hbelow : forall qs, aligned eq p l 0 qs -> last qs 0 = last fs 0 ->
                     Forall (fun j => j < e) qs).
  { intros qs H El. destruct H as [S F]. pose proof (sorted_hd_last qs S) as L.
    destruct qs as [|q qs]; [constructor|]. specialize (L ltac:(discriminate)).
    eapply Forall_impl; [|exact L]. simpl. intros a Ha. unfold e. rewrite <- El. simpl. lia. }
  assert (Df : desc (rev p) l e (rev fs)).
  { apply aligned_desc; auto. }
  destruct (rightmost_spec l (rev p) e (rev fs) Df) as (rs & Er & Dr & Hmax).
  apply desc_aligned in Dr as [Ar Lr].
  assert (Hws : rev rs <> []) by (eapply aligned_nonempty; eauto).
  assert (Hrs : rs <> []) by (intros ->; apply Hws; reflexivity).
  set (s := last rs e).
  assert (Hs : s = hd 0 (rev rs)).
  { rewrite hd_rev. unfold s. destruct rs as [|r rs']; [congruence|]. rewrite !last_cons_default. reflexivity. }
  assert (Hin : In s (rev rs)).
  { apply in_rev. rewrite rev_involutive. apply last_in. exact Hrs. }
  assert (Hse : s < e) by (rewrite Forall_forall in Lr; auto).
  assert (Hel : e <= length l).
  { pose proof (aligned_bound _ _ _ Af) as B. rewrite Forall_forall in B.
    apply (B (last fs 0)). apply last_in. eapply aligned_nonempty; eauto. }
  assert (Aw : aligned eq p (firstn (e - s) (skipn s l)) s (rev rs)).
  { apply aligned_window. split; [exact Ar|]. destruct Ar as [Sr _].
    pose proof (sorted_hd_last _ Sr Hws) as L. rewrite <- Hs in L.
    rewrite Forall_forall in *. intros j Hj. specialize (L j Hj). specialize (Lr j Hj). lia. }
  destruct (greedy_complete _ _ _ _ _ Aw) as (ps & Gp & Hle).
  assert (Ap : aligned eq p l 0 ps /\ Forall (fun j => s <= j < s + (e - s)) ps).
  { apply aligned_window. apply greedy_sound. exact Gp. }
  destruct Ap as [Ap Lp].
  assert (Hps : ps <> []) by (eapply aligned_nonempty; eauto).
  assert (Hlast : last ps 0 = last fs 0).
  { pose proof (Hmin ps Ap). rewrite Forall_forall in Lp. specialize (Lp _ (last_in ps 0 Hps)).
    unfold e in Lp. lia. }
  assert (Hhd : hd 0 ps = s).
  { destruct ps as [|a ps]; [congruence|]. simpl. inversion Lp; subst.
    clear - Hle H1 Hs. destruct (rev rs) as [|b u]; inversion Hle; subst; simpl in Hs. lia. }
  exists s, ps. split; [exact Er|]. split; [exact Hse|]. split; [exact Hel|]. split.
  { unfold v1_positions. rewrite G. fold e. rewrite Er. exact Gp. }
  split; [exact Gp|]. split; [exact Ap|]. split; [exact Hhd|]. split; [exact Hlast|].
  split; [rewrite Hlast; exact Hmin|]. split; [|split].
  - intros qs Aq El. rewrite Hlast in El.
    assert (Dq : desc (rev p) l e (rev qs)) by (apply aligned_desc; auto).
    apply Hmax in Dq. apply Forall2_rev_le in Dq. rewrite rev_involutive in Dq.
    rewrite Hs. destruct Dq; simpl; lia.
  - intros qs Aq El Hq. rewrite Hlast in El.
    assert (Aq' : aligned eq p (firstn (e - s) (skipn s l)) s qs).
    { apply aligned_window. split; [exact Aq|]. pose proof (Hbelow qs Aq El) as B.
      destruct Aq as [Sq Fq]. destruct qs as [|q qs]; [constructor|].
      pose proof (sorted_hd_last _ Sq ltac:(discriminate)) as L.
      rewrite Forall_forall in *. intros j Hj. specialize (L j Hj). specialize (B j Hj). lia. }
    destruct (greedy_complete _ _ _ _ _ Aq') as (ps' & G' & Hle'). rewrite Gp in G'. injection G' as <-.
    exact Hle'.
  - destruct Ap as [_ Fp]. destruct p as [|x p']; [congruence|].
    destruct ps as [|a ps]; [congruence|]. simpl in Hhd. subst a.
    inversion Fp as [|? ? ? ? (_ & y & Hy & E) _]; subst. rewrite Nat.sub_0_r in Hy.
    exists x, p', y, (firstn (e - s - 1) (skipn (S s) l)). split; [reflexivity|]. split; [|exact E].
    rewrite (skipn_cons_nth _ _ _ _ Hy). replace (e - s) with (S (e - s - 1)) at 1 by lia. reflexivity.
Qed.

End Passes.

Section WithUnicode.
Context {UC : unicode}.

Lemma v1_fuzzy_spec (R : bool) m sch p c pre own :
  v1_scoring_scheme m = into_inner sch ->
  cand_ok c -> p_text p <> [] -> chain 0 own ->
  v1_fuzzy R m p c (mk pre own)
  = Ok (match v1_positions (is_sensitive (v1_case_sensitivity m) p) (v1_candidate_normalization m)
                (p_text p) (cand_slice c) with
        | None => (None, m, mk pre own)
        | Some ps => (Some (alignment_score sch (cand_slice c) ps), m,
                      mk pre (if R then inserts own (map (char_range (cand_slice c)) ps) else own))
        end).
Proof.
  intros Hs Hc Hp Ho. unfold v1_fuzzy.
  set (sens := is_sensitive _ _). set (norm := v1_candidate_normalization m).
  rewrite forward_pass_spec by auto. cbn [bind].
  destruct (greedy (char_eq sens norm) (p_text p) (cand_slice c) 0) as [fs|] eqn:G.
  - destruct (v1_window sens norm _ _ _ Hp G) as (s & ps & Er & Hse & Hel & Ev & Gp & Ap & Hhd & _ & _ & _ & _ & W).
    cbn [option_map]. rewrite Ev. unfold backward_pass.
    destruct W as (x & p' & y & w & Ep & Ew & Exy).
    destruct (rev (p_text p)) as [|z r] eqn:Erev.
    { apply (f_equal (@length _)) in Erev. rewrite rev_length in Erev. rewrite Ep in Erev. discriminate. }
    rewrite backward_loop_spec by auto. rewrite Er. cbn [unwrap bind].
    rewrite Hs, (compute_score_spec R _ sch p c s (S (last fs 0)) pre own x p' ps y w); auto.
    + lia.
    + rewrite <- Ew, <- Ep. exact Gp.
  - cbn [option_map]. unfold v1_positions. rewrite G. reflexivity.
Qed.

End WithUnicode.
