(** Proofs of the properties about options, characters and distances. *)
From Coq Require Import Sorted Permutation.
From Verif Require Import Prelude Chars Normalize Utils Candidate MatchedRanges Query Parser Scoring
  Slab Fzf FzfV1 FzfV2 Api History
  Spec PreludeProofs CharsProofs NormalizeProofs CandidateProofs MatchedRangesProofs ParserProofs
  ScoreProofs ExactProofs ShapeProofs V1Proofs V2Tables V2Proofs V2Rows V2Fuzzy V2Facts ApiProofs AcceptProofs
  RangeProofs WordsProofs CongProofs FuzzyFacts Claims1 Claims2 Claims3.
Local Open Scope nat_scope.

Section WithUnicode.
Context {UC : unicode}.

(** ** Relaxing the comparison of characters *)

Section Weaker.
Variables (R R' : char -> char -> Prop).
Hypothesis H : forall x y, R x y -> R' x y.

Lemma Forall2_weaker p mid : Forall2 R p mid -> Forall2 R' p mid.
Proof. apply Forall2_imp. exact H. Qed.

Lemma fuzzy_weaker p c : fuzzy_in R p c -> fuzzy_in R' p c.
Proof.
  intros (ps & S & F). exists ps. split; [exact S|]. eapply Forall2_imp; [|exact F]. cbv beta. intros x j (y & Hy & Hr). eauto.
Qed.
Lemma exact_weaker p c : exact_in R p c -> exact_in R' p c.
Proof. intros (i & pre & mid & post & E & L & F). exists i, pre, mid, post. eauto using Forall2_weaker. Qed.
Lemma prefix_weaker p c : prefix_in R p c -> prefix_in R' p c.
Proof. intros (n & mid & post & E & F). exists n, mid, post. eauto using Forall2_weaker. Qed.
Lemma suffix_weaker p c : suffix_in R p c -> suffix_in R' p c.
Proof. intros (pre & mid & n & E & F). exists pre, mid, n. eauto using Forall2_weaker. Qed.
Lemma equal_weaker p c : equal_in R p c -> equal_in R' p c.
Proof. intros (n & mid & k & E & F). exists n, mid, k. eauto using Forall2_weaker. Qed.
End Weaker.

Lemma text_weaker o o' k text c :
  (forall x y, agreement o text x y -> agreement o' text x y) ->
  text_matches (opt_case o) (opt_norm o) k text c -> text_matches (opt_case o') (opt_norm o') k text c.
Proof.
  intros H. unfold text_matches. fold (agreement o text) (agreement o' text).
  destruct k; [apply fuzzy_weaker|apply exact_weaker|apply prefix_weaker|apply suffix_weaker|apply equal_weaker]; exact H.
Qed.

Lemma base_weaker a b o o' t c : t_text t <> [] ->
  (forall x y, agreement o (t_text t) x y -> agreement o' (t_text t) x y) ->
  (exists r, base_outcome a o t c = Some r) -> exists r, base_outcome b o' t c = Some r.
Proof.
  intros Ht H E.
  assert (D : blank_equal t \/ ~ blank_equal t).
  { unfold blank_equal. destruct (t_kind t); try (right; intros [? _]; discriminate).
    destruct (list_eq_dec N.eq_dec (t_text t) (spaces (length (t_text t)))); [left; auto|right; tauto]. }
  destruct D as [D|D].
  - apply (base_outcome_blank o a t c Ht D) in E. apply (base_outcome_blank o' b t c Ht D). exact E.
  - apply (base_outcome_iff o a t c Ht D) in E. apply (base_outcome_iff o' b t c Ht D). revert E. apply text_weaker. exact H.
Qed.

Lemma either_weaker a b o o' g c : Forall (fun t => t_text t <> []) g -> Forall (fun t => t_neg t = false) g ->
  Forall (fun t => forall x y, agreement o (t_text t) x y -> agreement o' (t_text t) x y) g ->
  (exists r, either_outcome a o g c = Some r) -> exists r, either_outcome b o' g c = Some r.
Proof.
  induction g as [|t g IH]; intros T N W [r E]; [discriminate|]. inversion T; subst. inversion N; subst. inversion W; subst.
  cbn [either_outcome] in *. unfold term_outcome in *. rewrite H3 in *.
  destruct (base_outcome b o' t c) as [r'|] eqn:E'; [eauto|]. apply IH; auto.
  destruct (base_outcome a o t c) as [r''|] eqn:E''; [|eauto].
  destruct (base_weaker a b o o' t c) as [r3 E3]; eauto. congruence.
Qed.

Lemma all_weaker a b o o' q c : texts_ok q -> positive q ->
  Forall (Forall (fun t => forall x y, agreement o (t_text t) x y -> agreement o' (t_text t) x y)) q ->
  (exists r, fst (all_outcome a o q c) = Some r) -> exists r, fst (all_outcome b o' q c) = Some r.
Proof.
  induction q as [|g q IH]; intros T N W [r E]; [cbn; eauto|]. inversion T; subst. inversion N; subst. inversion W; subst.
  cbn [all_outcome] in *.
  destruct (either_outcome a o g c) as [[sc rs]|] eqn:Eg; [|discriminate].
  assert (G : exists r, either_outcome b o' g c = Some r) by (eapply either_weaker; eauto). destruct G as [[sc' rs'] G]. rewrite G.
  destruct (all_outcome a o q c) as [[tot|] r1]; [|discriminate].
  assert (K : exists y, fst (all_outcome b o' q c) = Some y) by (apply IH; auto; eexists; reflexivity). destruct K as [tot' Et].
  destruct (all_outcome b o' q c) as [[tot''|] r2]; cbn [fst] in Et; [eexists; reflexivity|discriminate Et].
Qed.

Lemma positive_lone q : positive q -> ~ lone_negated_fuzzy q.
Proof. intros P (x & ->). inversion P as [|? ? P1]; subst. inversion P1; subst. discriminate. Qed.

Lemma find_weaker a b o o' m m' ps ps' s c : metric_reached a o m -> metric_reached b o' m' -> positive (parse_spec s) ->
  Forall (Forall (fun t => forall x y, agreement o (t_text t) x y -> agreement o' (t_text t) x y)) (parse_spec s) ->
  accepts (find ps m s c) -> accepts (find ps' m' s c).
Proof.
  intros Hm Hm' P W [d A]. apply metric_reached_options in Hm, Hm'.
  rewrite (find_spec a o) in A by exact Hm. rewrite (find_spec b o') by exact Hm'.
  rewrite outcome_all in A |- * by (apply positive_lone; exact P).
  destruct (fst (all_outcome a o (parse_spec s) c)) as [x|] eqn:E; [|discriminate].
  assert (G : exists y, fst (all_outcome b o' (parse_spec s) c) = Some y) by (eapply all_weaker; eauto; apply parse_spec_ok).
  destruct G as [y ->]. eexists. reflexivity.
Qed.

Lemma raw_weaker a b o o' m m' ps ps' s c : metric_reached a o m -> metric_reached b o' m' ->
  length s <= length (ps_chars ps') ->
  (forall x y, agreement o s x y -> agreement o' s x y) ->
  accepts (find_raw ps m s c) -> accepts (find_raw ps' m' s c).
Proof.
  intros Hm Hm' L W [d A]. apply metric_reached_options in Hm, Hm'.
  rewrite (find_raw_spec a o) in A by exact Hm. rewrite (find_raw_spec b o') by exact Hm'.
  apply Nat.leb_le in L. rewrite L.
  destruct (length s <=? length (ps_chars ps)); [|discriminate].
  assert (F : fuzzy_in (agreement o s) s c).
  { unfold agreement. apply (raw_outcome_iff o a). destruct (fst (raw_outcome a o s c)); [eauto|discriminate]. }
  apply (fuzzy_weaker _ _ W) in F. unfold agreement in F. apply (raw_outcome_iff o' b) in F as [x ->]. eexists. reflexivity.
Qed.

Lemma same_char_relax (s s' : bool) x y : (s' = true -> s = true) -> same_char s x y -> same_char s' x y.
Proof. destruct s, s'; cbn; intros H E; try congruence. discriminate H. reflexivity. Qed.

Lemma agrees_relax (s s' n n' : bool) x y : (s' = true -> s = true) -> (n = true -> n' = true) ->
  agrees s n x y -> agrees s' n' x y.
Proof.
  intros Hs Hn [A|[A B]]; [left|right; split; [auto|]]; (eapply same_char_relax; [exact Hs|]; assumption).
Qed.

Lemma stricter_sensitive cs cs' text : stricter cs cs' -> sensitive_for cs' text = true -> sensitive_for cs text = true.
Proof. intros [] H; try reflexivity; discriminate. Qed.

Lemma c34_relax_case : forall a o m m' ps s c cs cs',
  metric_reached a (with_case o cs) m -> metric_reached a (with_case o cs') m' -> stricter cs cs' ->
  positive (parse_spec s) ->
  accepts (find ps m s c) -> accepts (find ps m' s c).
Proof.
  intros a o m m' ps s c cs cs' Hm Hm' St P. eapply find_weaker; eauto.
  rewrite Forall_forall. intros g _. rewrite Forall_forall. intros t _ x y. apply agrees_relax; [|auto].
  apply stricter_sensitive. exact St.
Qed.

Lemma c35_normalize : forall a o m m' ps s c,
  metric_reached a (with_norm o false) m -> metric_reached a (with_norm o true) m' ->
  positive (parse_spec s) ->
  accepts (find ps m s c) -> accepts (find ps m' s c).
Proof.
  intros a o m m' ps s c Hm Hm' P. eapply find_weaker; eauto.
  rewrite Forall_forall. intros g _. rewrite Forall_forall. intros t _ x y. apply agrees_relax; auto.
Qed.

(** The same for queries which are not extended. *)
Lemma relax_not_extended : forall a o m m' ps s c cs cs' n n',
  metric_reached a (with_norm (with_case o cs) n) m -> metric_reached a (with_norm (with_case o cs') n') m' ->
  cs = cs' \/ stricter cs cs' -> (n = true -> n' = true) ->
  accepts (find_raw ps m s c) -> accepts (find_raw ps m' s c).
Proof.
  intros a o m m' ps s c cs cs' n n' Hm Hm' St Hn A. refine (raw_weaker a a _ _ m m' ps ps s c Hm Hm' _ _ A).
  - destruct A as [d A]. apply metric_reached_options in Hm. rewrite (find_raw_spec _ _ _ _ _ _ Hm) in A.
    destruct (Nat.leb_spec (length s) (length (ps_chars ps))); [assumption|discriminate].
  - intros x y. apply agrees_relax; [|exact Hn]. destruct St as [->|St]; [auto|]. apply stricter_sensitive. exact St.
Qed.

(** ** Options which make no difference *)

Lemma find_alike a o o' m m' ps s c buf : metric_reached a o m -> metric_reached a o' m' ->
  opt_scheme o = opt_scheme o' ->
  Forall (Forall (fun t => alike o o' c (t_text t))) (parse_spec s) ->
  find ps m s c = find ps m' s c /\ find_ranges ps m s c buf = find_ranges ps m' s c buf.
Proof.
  intros Hm Hm' Hs H. apply metric_reached_options in Hm, Hm'.
  rewrite (find_spec a o m), (find_spec a o' m'), (find_ranges_spec a o m), (find_ranges_spec a o' m') by assumption.
  rewrite (outcome_cong a o o' c Hs) by (try exact H; apply parse_spec_ok). split; reflexivity.
Qed.

Lemma raw_alike a o o' m m' ps s c buf : metric_reached a o m -> metric_reached a o' m' ->
  opt_scheme o = opt_scheme o' -> alike o o' c s ->
  find_raw ps m s c = find_raw ps m' s c /\ find_ranges_raw ps m s c buf = find_ranges_raw ps m' s c buf.
Proof.
  intros Hm Hm' Hs H. apply metric_reached_options in Hm, Hm'.
  rewrite (find_raw_spec a o m), (find_raw_spec a o' m'), (find_ranges_raw_spec a o m), (find_ranges_raw_spec a o' m') by assumption.
  rewrite (raw_outcome_cong a o o' c Hs) by exact H. split; reflexivity.
Qed.

Lemma alike_ascii o c text : Forall (fun x => x < 128)%N c -> alike (with_norm o false) (with_norm o true) c text.
Proof.
  intros Hc x y _ Hy. rewrite Forall_forall in Hc. rewrite !char_eq_ascii by (apply Hc; exact Hy). reflexivity.
Qed.

Lemma c36_ascii : forall a o m m' ps s c buf,
  metric_reached a (with_norm o false) m -> metric_reached a (with_norm o true) m' ->
  Forall (fun x => x < 128)%N c ->
  (find ps m s c = find ps m' s c /\ find_ranges ps m s c buf = find_ranges ps m' s c buf)
  /\ (find_raw ps m s c = find_raw ps m' s c /\ find_ranges_raw ps m s c buf = find_ranges_raw ps m' s c buf).
Proof.
  intros a o m m' ps s c buf Hm Hm' Hc. split.
  - eapply find_alike; eauto. rewrite Forall_forall. intros g _. rewrite Forall_forall. intros t _. apply alike_ascii. exact Hc.
  - eapply raw_alike; eauto. apply alike_ascii. exact Hc.
Qed.

(** More generally, normalization makes no difference for candidates without any character which
    has a normal form of its own. *)
Lemma c36_normal : forall a o m m' ps s c buf,
  metric_reached a (with_norm o false) m -> metric_reached a (with_norm o true) m' ->
  Forall (fun x => normal_form x = x) c ->
  (find ps m s c = find ps m' s c /\ find_ranges ps m s c buf = find_ranges ps m' s c buf)
  /\ (find_raw ps m s c = find_raw ps m' s c /\ find_ranges_raw ps m s c buf = find_ranges_raw ps m' s c buf).
Proof.
  intros a o m m' ps s c buf Hm Hm' Hc.
  assert (A : forall text, alike (with_norm o false) (with_norm o true) c text).
  { intros text x y _ Hy. rewrite Forall_forall in Hc. specialize (Hc y Hy). apply eq_true_iff_eq. rewrite !char_eq_agrees.
    unfold agrees. cbn [opt_case opt_norm with_norm]. rewrite Hc. intuition congruence. }
  split.
  - eapply find_alike; eauto. rewrite Forall_forall. intros g _. rewrite Forall_forall. intros t _. apply A.
  - eapply raw_alike; eauto.
Qed.

(** ** Smart case *)

Lemma c33_smart_sensitive_partial : forall a o m m' ps s c buf,
  metric_reached a (with_case o Smart) m -> metric_reached a (with_case o Sensitive) m' ->
  Forall (Forall (fun t => exists x, In x (t_text t) /\ is_uppercase x = true)) (parse_spec s) ->
  find ps m s c = find ps m' s c /\ find_ranges ps m s c buf = find_ranges ps m' s c buf.
Proof.
  intros a o m m' ps s c buf Hm Hm' H. eapply find_alike; eauto.
  rewrite Forall_forall in *. intros g Hg. specialize (H g Hg). rewrite Forall_forall in *. intros t Ht. specialize (H t Ht).
  intros x y _ _. cbn [opt_case opt_norm with_case sensitive_for]. apply existsb_exists in H. rewrite H. reflexivity.
Qed.

Lemma c33_smart_insensitive_partial : forall a o m m' ps s c buf,
  metric_reached a (with_case o Smart) m -> metric_reached a (with_case o Insensitive) m' ->
  Forall (Forall (fun t => forall x, In x (t_text t) -> is_uppercase x = false)) (parse_spec s) ->
  find ps m s c = find ps m' s c /\ find_ranges ps m s c buf = find_ranges ps m' s c buf.
Proof.
  intros a o m m' ps s c buf Hm Hm' H. eapply find_alike; eauto.
  rewrite Forall_forall in *. intros g Hg. specialize (H g Hg). rewrite Forall_forall in *. intros t Ht. specialize (H t Ht).
  intros x y _ _. cbn [opt_case opt_norm with_case sensitive_for].
  assert (E : existsb is_uppercase (t_text t) = false).
  { apply not_true_is_false. intros E. apply existsb_exists in E as (z & Hz & Ez). rewrite H in Ez by exact Hz. discriminate. }
  rewrite E. reflexivity.
Qed.

Lemma c33_smart_not_extended : forall a o m m1 m2 ps s c buf,
  metric_reached a (with_case o Smart) m -> metric_reached a (with_case o Sensitive) m1 ->
  metric_reached a (with_case o Insensitive) m2 ->
  ((exists x, In x s /\ is_uppercase x = true) ->
     find_raw ps m s c = find_raw ps m1 s c /\ find_ranges_raw ps m s c buf = find_ranges_raw ps m1 s c buf)
  /\ ((forall x, In x s -> is_uppercase x = false) ->
     find_raw ps m s c = find_raw ps m2 s c /\ find_ranges_raw ps m s c buf = find_ranges_raw ps m2 s c buf).
Proof.
  intros a o m m1 m2 ps s c buf Hm H1 H2. split; intros H; eapply raw_alike; eauto; intros x y _ _;
    cbn [opt_case opt_norm with_case sensitive_for].
  - apply existsb_exists in H. rewrite H. reflexivity.
  - assert (E : existsb is_uppercase s = false).
    { apply not_true_is_false. intros E. apply existsb_exists in E as (z & Hz & Ez). rewrite H in Ez by exact Hz. discriminate. }
    rewrite E. reflexivity.
Qed.

(** Term by term *)
Lemma smart_term norm t c : term_accepts Smart norm t c
  <-> term_accepts (if existsb is_uppercase (t_text t) then Sensitive else Insensitive) norm t c.
Proof.
  unfold term_accepts, text_matches. cbn [sensitive_for].
  destruct (existsb is_uppercase (t_text t)); cbn [sensitive_for]; reflexivity.
Qed.

Lemma c33_terms : forall a o m m1 m2 ps s c,
  metric_reached a (with_case o Smart) m -> metric_reached a (with_case o Sensitive) m1 ->
  metric_reached a (with_case o Insensitive) m2 -> regular (parse_spec s) ->
  let mode t := if existsb is_uppercase (t_text t) then Sensitive else Insensitive in
  let metric_for t := if existsb is_uppercase (t_text t) then m1 else m2 in
  (accepts (find ps m s c)
   <-> Forall (fun g => Exists (fun t => term_accepts (mode t) (opt_norm o) t c) g) (parse_spec s))
  /\ forall d, find ps m s c = Ok (Some d) ->
     exists scores, d = from_score (sum scores)
     /\ Forall2 (fun g x => exists t, first_such (fun t => term_accepts (mode t) (opt_norm o) t c) g t
          /\ (if t_neg t then x = 0%Z
              else forall ps1 s1, parse_spec s1 = [[t]] ->
                   find ps1 (metric_for t) s1 c = Ok (Some (from_score x))))
        (parse_spec s) scores.
Proof.
  intros a o m m1 m2 ps s c Hm H1 H2 R mode metric_for. split.
  - rewrite (c27_accepts a _ m ps s c Hm R). unfold cnf_accepts. cbn [opt_case opt_norm with_case].
    assert (X : forall g, Exists (fun t => term_accepts Smart (opt_norm o) t c) g
                          <-> Exists (fun t => term_accepts (mode t) (opt_norm o) t c) g).
    { intros g. rewrite !Exists_exists. split; intros (t & Ht & K); exists t; (split; [exact Ht|apply smart_term, K]). }
    rewrite !Forall_forall. split; intros F g Hg; apply X, F, Hg.
  - intros d E. destruct (c27_score a _ m ps s c d Hm R E) as (scores & Hd & F). exists scores. split; [exact Hd|].
    clear -F Hm H1 H2. cbn [opt_case opt_norm with_case] in F.
    induction F as [|g x q xs (t & Ft & Ht) F IH]; constructor; [|exact IH]. exists t. split.
    + destruct Ft as (b & e & -> & Fb & Tt). exists b, e. split; [reflexivity|]. split; [|apply smart_term; exact Tt].
      eapply Forall_impl; [|exact Fb]. cbn beta. intros u Hu K. apply Hu, smart_term, K.
    + destruct (t_neg t); [exact Ht|]. intros ps1 s1 Hs1. rewrite <- (Ht ps1 s1 Hs1). symmetry. unfold metric_for.
      destruct (existsb is_uppercase (t_text t)) eqn:U.
      * apply (c33_smart_sensitive_partial a o m m1 ps1 s1 c [] Hm H1). rewrite Hs1. repeat constructor. apply existsb_exists, U.
      * apply (c33_smart_insensitive_partial a o m m2 ps1 s1 c [] Hm H2). rewrite Hs1. repeat constructor.
        intros y Hy. apply not_true_is_false. intros K. assert (X : existsb is_uppercase (t_text t) = true) by (apply existsb_exists; eauto). congruence.
Qed.

(** Without letters of the ASCII alphabet in the query the case mode makes no difference. *)
Lemma fold_case_other x y : ~ ascii_letter x -> (fold_case x = fold_case y <-> x = y).
Proof.
  unfold ascii_letter, fold_case. intros H.
  destruct (N.leb_spec 65 x), (N.leb_spec x 90), (N.leb_spec 65 y), (N.leb_spec y 90); cbn [andb]; lia.
Qed.

Lemma no_letters : forall a o m m' ps s c buf cs cs',
  metric_reached a (with_case o cs) m -> metric_reached a (with_case o cs') m' ->
  Forall (Forall (fun t => Forall (fun x => ~ ascii_letter x) (t_text t))) (parse_spec s) ->
  find ps m s c = find ps m' s c /\ find_ranges ps m s c buf = find_ranges ps m' s c buf.
Proof.
  intros a o m m' ps s c buf cs cs' Hm Hm' H. eapply find_alike; eauto.
  rewrite Forall_forall in *. intros g Hg. specialize (H g Hg). rewrite Forall_forall in *. intros t Ht. specialize (H t Ht).
  rewrite Forall_forall in H. intros x y Hx _. specialize (H x Hx). apply eq_true_iff_eq. rewrite !char_eq_agrees.
  cbn [opt_norm with_case opt_case].
  assert (G : forall b z, same_char b x z <-> x = z) by (intros [] z; cbn; [reflexivity|apply fold_case_other; exact H]).
  unfold agrees. rewrite !G. reflexivity.
Qed.

(** ** C32 *)

Lemma one_in R x y : fuzzy_in R [x] [y] <-> R x y.
Proof.
  split.
  - intros (ps & S & F). inversion F as [|? j ? ps' (z & Hz & Hr) F']; subst. destruct j as [|[|]]; try discriminate.
    injection Hz as ->. exact Hr.
  - intros H. exists [0]. split; [repeat constructor|]. constructor; [|constructor]. exists y. auto.
Qed.

Lemma find_one a o m ps x y : metric_reached a o m -> parser_reached ps ->
  (accepts (find_raw ps m [x] [y]) <-> agreement o [x] x y).
Proof.
  intros Hm Hp. apply metric_reached_options in Hm. rewrite (find_raw_spec a o) by exact Hm.
  assert (L : 1 <= length (ps_chars ps)) by (pose proof (parser_room ps Hp); lia).
  apply Nat.leb_le in L. cbn [length]. rewrite L. rewrite <- one_in. unfold agreement. rewrite (raw_outcome_iff o a).
  unfold accepts. destruct (fst (raw_outcome a o [x] [y])); cbn [option_map]; split; intros [r Hr]; eauto; discriminate.
Qed.

Lemma c32_sensitive : forall a o m ps x y,
  metric_reached a (with_case (with_norm o false) Sensitive) m -> parser_reached ps ->
  (accepts (find_raw ps m [x] [y]) <-> x = y).
Proof.
  intros a o m ps x y Hm Hp. rewrite (find_one _ _ _ _ _ _ Hm Hp). cbn. unfold agreement, agrees. cbn. intuition congruence.
Qed.

Lemma c32_insensitive_ascii_partial : forall a o m ps x y,
  metric_reached a (with_case (with_norm o false) Insensitive) m -> parser_reached ps ->
  (accepts (find_raw ps m [x] [y]) <-> fold_case x = fold_case y).
Proof.
  intros a o m ps x y Hm Hp. rewrite (find_one _ _ _ _ _ _ Hm Hp). cbn. unfold agreement, agrees. cbn. intuition congruence.
Qed.

(** ** C50 *)

Lemma alignment_shift R p c ps pre post : alignment R p c ps ->
  alignment R p (pre ++ c ++ post) (map (Nat.add (length pre)) ps).
Proof.
  intros [S F]. split.
  - clear F. induction S as [|j ps _ IH Hj]; cbn [map]; constructor; [exact IH|].
    rewrite Forall_forall in *. intros k Hk. apply in_map_iff in Hk as (k' & <- & Hk). specialize (Hj k' Hk). lia.
  - clear S. induction F as [|x j p ps (y & Hy & Hr) _ IH]; cbn [map]; constructor; [|exact IH].
    exists y. split; [|exact Hr]. rewrite nth_error_app2 by lia. replace (length pre + j - length pre) with j by lia.
    rewrite nth_error_app1; [exact Hy|]. apply nth_error_Some. congruence.
Qed.

Lemma text_extends cs norm k text c pre post : k = KFuzzy \/ k = KExact ->
  text_matches cs norm k text c -> text_matches cs norm k text (pre ++ c ++ post).
Proof.
  unfold text_matches. intros [->| ->].
  - intros (ps & A). exists (map (Nat.add (length pre)) ps). apply alignment_shift. exact A.
  - intros (i & p1 & mid & p2 & -> & L & F). exists (length pre + i), (pre ++ p1), mid, (p2 ++ post).
    split; [rewrite <- !app_assoc; reflexivity|]. split; [rewrite app_length; lia|exact F].
Qed.

Lemma c50_extend : forall a o m ps s c pre post, metric_reached a o m ->
  Forall (Forall (fun t => t_neg t = false /\ (t_kind t = KFuzzy \/ t_kind t = KExact))) (parse_spec s) ->
  accepts (find ps m s c) -> accepts (find ps m s (pre ++ c ++ post)).
Proof.
  intros a o m ps s c pre post Hm H.
  assert (R : regular (parse_spec s)).
  { split.
    - apply positive_lone. unfold positive. eapply Forall_impl; [|exact H]. intros g. apply Forall_impl. tauto.
    - eapply Forall_impl; [|exact H]. intros g. apply Forall_impl. intros t [_ [K|K]] [K' _]; congruence. }
  rewrite !(c27_accepts a o m ps s _ Hm R). unfold cnf_accepts. rewrite !Forall_forall in *. intros A g Hg.
  specialize (A g Hg). specialize (H g Hg). rewrite Forall_forall in H. apply Exists_exists in A as (t & Ht & A).
  apply Exists_exists. exists t. split; [exact Ht|]. specialize (H t Ht) as [N K]. unfold term_accepts in *. rewrite N in *.
  apply text_extends; assumption.
Qed.

Lemma c50_not_extended : forall a o m ps s c pre post, metric_reached a o m ->
  accepts (find_raw ps m s c) -> accepts (find_raw ps m s (pre ++ c ++ post)).
Proof.
  intros a o m ps s c pre post Hm [d A]. apply metric_reached_options in Hm. rewrite (find_raw_spec a o) in * by exact Hm.
  destruct (length s <=? length (ps_chars ps)); [|discriminate].
  assert (F : fuzzy_in (agreement o s) s c).
  { unfold agreement. apply (raw_outcome_iff o a). destruct (fst (raw_outcome a o s c)); [eauto|discriminate]. }
  destruct F as [qs F]. apply (alignment_shift _ _ _ _ pre post) in F.
  assert (G : fuzzy_in (agreement o s) s (pre ++ c ++ post)) by (eexists; exact F).
  unfold agreement in G. apply (raw_outcome_iff o a) in G as [x ->]. eexists. reflexivity.
Qed.

(** Every other kind of term is an exact term with a condition on the place, and every exact
    term is a fuzzy term. *)
Lemma exact_fuzzy R p c : exact_in R p c -> fuzzy_in R p c.
Proof.
  intros (i & pre & mid & post & -> & L & F). exists (seq i (length p)). split.
  - clear. generalize (length p). intros n. revert i. induction n as [|n IH]; intros i; cbn [seq]; constructor; [apply IH|].
    apply Forall_forall. intros k Hk. apply in_seq in Hk. lia.
  - subst i. revert pre. induction F as [|x y p mid Hxy _ IH]; intros pre; cbn [length seq]; constructor.
    + exists y. split; [|exact Hxy]. rewrite nth_error_app2 by lia. rewrite Nat.sub_diag. reflexivity.
    + specialize (IH (pre ++ [y])). rewrite app_length in IH. cbn [length] in IH. replace (length pre + 1) with (S (length pre)) in IH by lia.
      rewrite <- app_assoc in IH. exact IH.
Qed.
Lemma prefix_exact R p c : prefix_in R p c -> exact_in R p c.
Proof. intros (n & mid & post & E & F). exists (length (spaces n)), (spaces n), mid, post. auto. Qed.
Lemma suffix_exact R p c : suffix_in R p c -> exact_in R p c.
Proof. intros (pre & mid & n & E & F). exists (length pre), pre, mid, (spaces n). auto. Qed.
Lemma equal_prefix R p c : equal_in R p c -> prefix_in R p c.
Proof. intros (n & mid & k & E & F). exists n, mid, (spaces k). auto. Qed.
Lemma equal_suffix R p c : equal_in R p c -> suffix_in R p c.
Proof. intros (n & mid & k & E & F). exists (spaces n), mid, k. auto. Qed.

Lemma narrower_matches cs norm text c k k' : narrower k k' -> text_matches cs norm k text c -> text_matches cs norm k' text c.
Proof.
  induction 1; [apply exact_fuzzy|apply prefix_exact|apply suffix_exact|apply equal_prefix|apply equal_suffix|auto].
Qed.

Lemma narrower_not_equal k k' : narrower k k' -> k' <> KEqual.
Proof. induction 1; try discriminate. assumption. Qed.

Lemma kinds_narrow : forall a o m ps s s' k k' text c, metric_reached a o m -> narrower k k' ->
  parse_spec s = [[Term false k text]] -> parse_spec s' = [[Term false k' text]] ->
  accepts (find ps m s c) -> accepts (find ps m s' c).
Proof.
  intros a o m ps s s' k k' text c Hm Hk Hs Hs' [d A].
  destruct (single_result a o m ps s k text c [] Hm Hs) as [E _]. destruct (single_result a o m ps s' k' text c [] Hm Hs') as [E' _].
  rewrite E in A. rewrite E'. clear E E'. pose proof (single_text _ _ _ _ Hs) as Ht.
  assert (B' : ~ blank_equal (Term false k' text)) by (intros [B _]; cbn in B; exact (narrower_not_equal _ _ Hk B)).
  assert (T : text_matches (opt_case o) (opt_norm o) k text c).
  { assert (D : blank_equal (Term false k text) \/ ~ blank_equal (Term false k text)).
    { unfold blank_equal. cbn. destruct k; try (right; intros [? _]; discriminate).
      destruct (list_eq_dec N.eq_dec text (spaces (length text))); [left; auto|right; tauto]. }
    assert (S : exists r, base_outcome a o (Term false k text) c = Some r) by (destruct (base_outcome a o _ c); [eauto|discriminate]).
    destruct D as [D|D].
    - apply (base_outcome_blank o a (Term false k text) c Ht D) in S. cbn in S. destruct D as [D1 D2]. cbn in D1, D2. subst k c.
      exists 0, text, 0. split; [cbn; rewrite app_nil_r; reflexivity|]. rewrite D2. apply spaces_Forall2.
    - apply (base_outcome_iff o a (Term false k text) c Ht D) in S. exact S. }
  apply (narrower_matches _ _ _ _ _ _ Hk) in T.
  apply (base_outcome_iff o a (Term false k' text) c Ht B') in T as [r ->]. eexists. reflexivity.
Qed.

(** ** C37, C38 *)

Lemma c37_normalize : forall c,
  normalize c = normal_form c /\ normalize (normalize c) = normalize c /\ ((c < 128)%N -> normalize c = c).
Proof.
  intros c. rewrite !normalize_normal_form. split; [reflexivity|]. split; [apply normal_form_idempotent|apply normal_form_ascii].
Qed.

Lemma c38_order : forall d1 d2 d3,
  (distance_cmp d1 d2 = Eq <-> d1 = d2)
  /\ (distance_cmp d1 d2 = Lt <-> (into_score d2 < into_score d1)%Z)
  /\ distance_cmp d2 d1 = CompOpp (distance_cmp d1 d2)
  /\ (distance_cmp d1 d2 = Lt -> distance_cmp d2 d3 = Lt -> distance_cmp d1 d3 = Lt)
  /\ (distance_eqb d1 d2 = true <-> d1 = d2).
Proof.
  intros [x] [y] [z]. unfold distance_cmp, distance_eqb, into_score. split; [|split; [|split; [|split]]].
  - rewrite Z.compare_eq_iff. split; congruence.
  - rewrite Z.compare_lt_iff. reflexivity.
  - apply Z.compare_antisym.
  - rewrite !Z.compare_lt_iff. lia.
  - rewrite Z.eqb_eq. split; congruence.
Qed.

(** ** C48 *)

(** The last call of a setter wins, and setters of different options commute. *)
Lemma c48_setters : forall m cs cs' n n' sch sch',
  set_case_sensitivity (set_case_sensitivity m cs) cs' = set_case_sensitivity m cs'
  /\ set_candidate_normalization (set_candidate_normalization m n) n' = set_candidate_normalization m n'
  /\ set_scoring_scheme (set_scoring_scheme m sch) sch' = set_scoring_scheme m sch'
  /\ set_case_sensitivity (set_candidate_normalization m n) cs = set_candidate_normalization (set_case_sensitivity m cs) n
  /\ set_case_sensitivity (set_scoring_scheme m sch) cs = set_scoring_scheme (set_case_sensitivity m cs) sch
  /\ set_candidate_normalization (set_scoring_scheme m sch) n = set_scoring_scheme (set_candidate_normalization m n) sch.
Proof. intros [m|m] cs cs' n n' sch sch'; repeat split. Qed.

(** What a setter sets is not changed by searches: for the results of later searches it
    makes no difference whether a search comes before or after the setters, or not at all. *)
Lemma c48_searches : forall a o m q c d m' q' c' buf f,
  metric_reached a o m -> query_reached q -> query_reached q' ->
  metric_distance m q c = Ok (d, m') ->
  (exists cs, f = fun m => set_case_sensitivity m cs)
  \/ (exists n, f = fun m => set_candidate_normalization m n)
  \/ (exists sch, f = fun m => set_scoring_scheme m sch) ->
  exists d1 buf1 m1 m2,
    metric_distance_and_ranges (f m) q' c' buf = Ok (d1, m1, buf1)
    /\ metric_distance_and_ranges (f m') q' c' buf = Ok (d1, m2, buf1).
Proof.
  intros a o m q c d m' q' c' buf f Hm Hq Hq' E Hf.
  assert (Hm' : metric_reached a o m') by exact (mr_distance a o m q c d m' Hm Hq E).
  assert (G : exists o', metric_reached a o' (f m) /\ metric_reached a o' (f m')).
  { destruct Hf as [[x ->]|[[x ->]|[x ->]]]; eexists; (split; [constructor; exact Hm|constructor; exact Hm']). }
  destruct G as (o' & G1 & G2). destruct (history a o' (f m) (f m') q' c' buf G1 G2 Hq') as [_ (d1 & b1 & m1 & m2 & E1 & E2)].
  eauto 8.
Qed.

End WithUnicode.
