(** Proofs of the exact forms of C07, C22, C23, C24 and C46. *)
From Coq Require Import Sorted.
From Verif Require Import Prelude Chars Normalize Utils Candidate MatchedRanges Query Parser Scoring
  Slab Fzf FzfV1 FzfV2 Api History
  Spec PreludeProofs CharsProofs NormalizeProofs CandidateProofs MatchedRangesProofs ParserProofs
  ScoreProofs ExactProofs ExactChoice ShapeProofs V1Proofs V2Tables V2Proofs V2Rows V2Fuzzy V2Facts ApiProofs AcceptProofs
  RangeProofs WordsProofs CongProofs FuzzyFacts Claims1 Claims2 Claims3 Claims7.
Local Open Scope nat_scope.

(** ** What inserting a range covers *)

(** The range is cut where the first of the ranges which start after it ends. *)
Lemma ins_exact own a b x : forall lo, a < b -> chain lo own ->
  (covered (ins own a b) x <-> covered own x \/ (a <= x < b /\ ~ exists r, In r own /\ a < fst r /\ snd r <= x)).
Proof.
  induction own as [|[s e] t IH]; intros lo Hab H.
  - cbn [ins]. rewrite covered_cons. cbn [fst snd]. split.
    + intros [C|C]; [|destruct (covered_nil _ C)]. right. split; [exact C|]. intros (r & [] & _).
    + intros [C|[C _]]; [destruct (covered_nil _ C)|left; exact C].
  - destruct H as (H1 & H2 & H3). pose proof (chain_bound _ _ H3) as Bd.
    assert (N : forall t' lo', chain lo' t' -> a < lo' ->
      (exists r, In r t' /\ a < fst r /\ snd r <= x) <-> match t' with [] => False | r :: _ => snd r <= x end).
    { intros [|[s1 e1] t1] lo' Hc Hl; [split; [intros (r & [] & _)|contradiction]|]. cbn [snd]. destruct Hc as (C1 & C2 & C3). split.
      - intros (r & [<-|Hr] & Ha & Hx); [exact Hx|]. apply chain_bound in C3. rewrite Forall_forall in C3. apply C3 in Hr. lia.
      - intros Hx. exists (s1, e1). split; [left; reflexivity|]. cbn [fst snd]. lia. }
    assert (Cons : (exists r, In r ((s, e) :: t) /\ a < fst r /\ snd r <= x)
              <-> (a < s /\ e <= x) \/ exists r, In r t /\ a < fst r /\ snd r <= x).
    { split.
      - intros (r & [<-|Hr] & Hx); [left; exact Hx|right; eauto].
      - intros [Hx|(r & Hr & Hx)]; [exists (s, e)|exists r]; cbn [In fst snd]; auto. }
    rewrite Cons. clear Cons.
    cbn [ins]. destruct t as [|[s' e'] t'].
    + assert (Nt : (exists r, In r [] /\ a < fst r /\ snd r <= x) <-> False) by (split; [intros (r & [] & _)|contradiction]).
      rewrite Nt. rewrite !covered_cons. assert (Cn : covered [] x <-> False) by (split; [apply covered_nil|contradiction]).
      ins_cases; rewrite ?covered_cons, ?Cn; cbn [fst snd]; rewrite ?Cn; intuition lia.
    + pose proof H3 as H3'. destruct H3 as (H4 & H5 & H6).
      destruct (Nat.ltb_spec s' a) as [L|L]; [|destruct (Nat.eqb_spec s' a) as [Ea|Na]].
      * destruct (Nat.eqb_spec s a); [lia|]. destruct (Nat.ltb_spec a s); [lia|].
        destruct (Nat.leb_spec s' a); [|lia]. rewrite covered_cons, (IH _ Hab H3'). rewrite (covered_cons (s, e)).
        cbn [fst snd]. intuition lia.
      * destruct (Nat.eqb_spec s a); [lia|]. destruct (Nat.ltb_spec a s); [lia|].
        destruct (Nat.leb_spec s' a); [|lia]. rewrite covered_cons, (IH _ Hab H3'). rewrite (covered_cons (s, e)).
        cbn [fst snd]. intuition lia.
      * assert (Nt : (exists r, In r ((s', e') :: t') /\ a < fst r /\ snd r <= x) <-> e' <= x).
        { rewrite (N ((s', e') :: t') s'); [reflexivity| |lia]. cbn [chain]. auto. }
        rewrite Nt. clear N Nt IH.
        ins_cases; rewrite ?covered_cons; cbn [fst snd]; try solve [intuition lia];
          (assert (Ct : covered t' x -> e' < x)
            by (intros (r & Hr & Hx); apply chain_bound in H6; rewrite Forall_forall in H6; apply H6 in Hr; lia);
           intuition lia).
Qed.

Section WithUnicode.
Context {UC : unicode}.

(** ** C07: what a further condition adds *)

Lemma c07_step : forall a o m ps s s' q g c buf d d' new new',
  metric_reached a o m ->
  parse_spec s = q -> parse_spec s' = q ++ [g] -> regular q -> regular (q ++ [g]) ->
  find_ranges ps m s c buf = Ok (Some d, buf ++ new) ->
  find_ranges ps m s' c buf = Ok (Some d', buf ++ new') ->
  exists t, first_such (fun t => term_accepts (opt_case o) (opt_norm o) t c) g t
  /\ (t_neg t = true -> new' = new)
  /\ (t_neg t = false -> forall ps1 s1, parse_spec s1 = [[t]] ->
      exists d1 new1, find_ranges ps1 m s1 c [] = Ok (Some d1, new1)
      /\ forall b, covered new' b <->
           covered new b
           \/ (covered new1 b
               /\ (t_kind t = KFuzzy \/ ~ exists r1 r, In r1 new1 /\ In r new /\ fst r1 < fst r /\ snd r <= b))).
Proof.
  intros a o m ps s s' q g c buf d d' new new' Hm Hs Hs' Rq Rq' E E'. pose proof (metric_reached_options _ _ _ Hm) as Ho.
  rewrite (find_ranges_spec a o) in E, E' by exact Ho. rewrite Hs in E. rewrite Hs' in E'.
  rewrite outcome_all in E by apply Rq. rewrite outcome_all in E' by apply Rq'.
  destruct (all_outcome a o q c) as [[sc|] rs] eqn:Ea; [|discriminate].
  assert (En : new = inserts [] rs). { apply (app_inv_head buf). cbn [fst snd option_map] in E. congruence. }
  rewrite (all_outcome_app a o q [g] c sc rs Ea) in E'. cbn [fst snd option_map] in E'.
  pose proof (proj1 (parse_spec_ok s')) as T. rewrite Hs' in T. apply Forall_app in T as [Tq Tg]. inversion Tg as [|? ? Tg' _]; subst. clear Tg.
  apply regular_parts in Rq'. apply Forall_app in Rq' as [_ Rg]. inversion Rg as [|? ? Rg' _]; subst. clear Rg.
  cbn [all_outcome] in E'. destruct (either_outcome a o g c) as [[sc1 rs1]|] eqn:Eg; [|discriminate].
  cbn [fst snd option_map] in E'. rewrite app_nil_r in E'.
  assert (En' : new' = inserts (inserts [] rs) rs1). { rewrite <- inserts_app. apply (app_inv_head buf). congruence. }
  subst new'. clear E E'.
  destruct (either_first a o c g sc1 rs1 Tg' Rg' Eg) as (t & Ft & Et). exists t. split; [exact Ft|].
  assert (Tt : t_text t <> []).
  { destruct Ft as (b1 & b2 & -> & _). apply Forall_app in Tg' as [_ X]. inversion X; assumption. }
  assert (Ch : chain 0 (inserts [] rs)).
  { apply inserts_chain; [|constructor]. pose proof (all_outcome_proper a o _ c Tq) as P. rewrite Ea in P. exact P. }
  assert (Bd : on_boundaries c (inserts [] rs)).
  { apply inserts_boundaries; [|constructor]. pose proof (all_outcome_boundaries a o _ c Tq) as P. rewrite Ea in P. exact P. }
  split; intros Ng.
  - unfold term_outcome in Et. rewrite Ng in Et. destruct (base_outcome a o t c); [discriminate|].
    injection Et as _ <-. reflexivity.
  - intros ps1 s1 Hs1. unfold term_outcome in Et. rewrite Ng in Et.
    rewrite (lone_found a o m ps1 s1 t c Hm Hs1 (or_introl Ng)), Et. eexists _, _. split; [reflexivity|].
    intros b. rewrite (covered_base a o t c sc1 rs1 b Tt Et). unfold base_outcome in Et.
    destruct (t_kind t) eqn:K.
    1: { apply fuzzy_outcome_chars in Et as (js & -> & Hj); [|exact Tt]. rewrite inserts_chars by assumption. tauto. }
    all: destruct (place_found o t c) as [i|] eqn:P; [|discriminate]; injection Et as _ <-;
      apply place_found_hits in P as [_ P]; [|exact Tt];
      assert (Hp : fst (span c i (i + length (t_text t))) < snd (span c i (i + length (t_text t))))
        by (apply span_proper; [destruct (t_text t); [congruence|cbn; lia]|exact P]);
      set (r1 := span c i (i + length (t_text t))) in *;
      change (inserts (inserts [] rs) [r1]) with (ins (inserts [] rs) (fst r1) (snd r1));
      change (inserts [] [r1]) with [(fst r1, snd r1)];
      rewrite (ins_exact _ _ _ b 0 Hp Ch);
      (assert (C1 : covered [r1] b <-> fst r1 <= b < snd r1)
        by (rewrite covered_cons; split; [intros [C|C]; [exact C|destruct (covered_nil _ C)]|auto]));
      rewrite C1;
      (assert (C2 : (exists r2 r, In r2 [(fst r1, snd r1)] /\ In r (inserts [] rs) /\ fst r2 < fst r /\ snd r <= b)
               <-> exists r, In r (inserts [] rs) /\ fst r1 < fst r /\ snd r <= b)
        by (split; [intros (r2 & r & [<-|[]] & X); eauto|intros (r & X); exists (fst r1, snd r1), r; split; [left; reflexivity|exact X]]));
      rewrite C2; intuition discriminate.
Qed.

(** ** C22, C23, C24: where the text is found *)

Lemma lead_match_le sens norm p mid post : Forall2 (agrees sens norm) p mid -> lead p <= lead (mid ++ post).
Proof.
  intros F. destruct (lead_split p) as (rest & Hs & _). rewrite Hs in F.
  apply Forall2_app_inv_l in F as (m1 & m2 & F1 & F2 & ->). apply Forall2_spaces in F1. subst m1.
  rewrite <- app_assoc, lead_app. lia.
Qed.

Lemma prefix_find_max sens norm p l i n mid post : prefix_find (char_eq sens norm) p l = Some i ->
  l = spaces n ++ mid ++ post -> Forall2 (agrees sens norm) p mid -> n <= i.
Proof.
  intros E El F. unfold prefix_find in E. destruct (lead l <? lead p); [discriminate|].
  destruct (hits _ _ _); [|discriminate]. injection E as <-.
  apply lead_match_le with (post := post) in F. rewrite El, lead_app. lia.
Qed.

Lemma found_at_length o text c pre mid post buf pre' mid' post' r :
  found_at o text c pre mid post buf r -> found_at o text c pre' mid' post' buf r -> length pre = length pre'.
Proof.
  intros (Ec & _ & R) (Ec' & _ & R'). rewrite R in R'.
  assert (X : buf ++ [(byte_len pre, byte_len pre + byte_len mid)] = buf ++ [(byte_len pre', byte_len pre' + byte_len mid')]) by congruence.
  apply app_inv_head in X. assert (B : byte_len pre = byte_len pre') by congruence.
  assert (Hn : length pre <= length c) by (rewrite Ec, app_length; lia).
  assert (Hi : length pre' <= length c) by (rewrite Ec', app_length; lia).
  assert (B1 : pre = firstn (length pre) c) by (rewrite Ec; symmetry; apply firstn_app_len).
  assert (B2 : pre' = firstn (length pre') c) by (rewrite Ec'; symmetry; apply firstn_app_len).
  rewrite B1, B2 in B. destruct (Nat.lt_trichotomy (length pre) (length pre')) as [X1|[X1|X1]]; [exfalso|exact X1|exfalso].
  - pose proof (byte_len_firstn_lt c (length pre) (length pre') ltac:(lia) ltac:(lia)). lia.
  - pose proof (byte_len_firstn_lt c (length pre') (length pre) ltac:(lia) ltac:(lia)). lia.
Qed.

Lemma c22_place : forall a o m ps s text c buf d buf',
  metric_reached a o m -> parse_spec s = [[Term false KPrefix text]] ->
  find_ranges ps m s c buf = Ok (Some d, buf') ->
  exists n mid post, found_at o text c (spaces n) mid post buf (Ok (Some d, buf'))
    /\ forall n' mid' post', c = spaces n' ++ mid' ++ post' -> Forall2 (agreement o text) text mid' -> n' <= n.
Proof.
  intros a o m ps s text c buf d buf' Hm Hs E.
  destruct (c22_prefix a o m ps s text c buf Hm Hs) as [[_ E']|(n & mid & post & F)]; [congruence|].
  rewrite E in F. exists n, mid, post. split; [exact F|]. intros n' mid' post' Ec F'.
  destruct (place_term a o m ps s KPrefix text c buf Hm Hs) as [[_ E']|(i & pre & mid1 & post1 & P & Hl & _ & F1)]; [discriminate|congruence|].
  rewrite E in F1. pose proof (found_at_length _ _ _ _ _ _ _ _ _ _ _ F F1) as L. rewrite spaces_length, Hl in L. subst n.
  eapply prefix_find_max; [exact P|exact Ec|exact F'].
Qed.

Lemma c23_place : forall a o m ps s text c buf d buf',
  metric_reached a o m -> parse_spec s = [[Term false KSuffix text]] ->
  find_ranges ps m s c buf = Ok (Some d, buf') ->
  exists pre mid n, found_at o text c pre mid (spaces n) buf (Ok (Some d, buf'))
    /\ forall pre' mid' n', c = pre' ++ mid' ++ spaces n' -> Forall2 (agreement o text) text mid' -> n' <= n.
Proof.
  intros a o m ps s text c buf d buf' Hm Hs E.
  destruct (c23_suffix a o m ps s text c buf Hm Hs) as [[_ E']|(pre & mid & n & F)]; [congruence|].
  rewrite E in F. exists pre, mid, n. split; [exact F|]. intros pre' mid' n' Ec F'.
  destruct (place_term a o m ps s KSuffix text c buf Hm Hs) as [[_ E']|(i & pre1 & mid1 & post1 & P & Hl & _ & F1)]; [discriminate|congruence|].
  rewrite E in F1. pose proof (found_at_length _ _ _ _ _ _ _ _ _ _ _ F F1) as L. rewrite Hl in L.
  unfold place_found in P. cbn [t_kind t_text] in P. rewrite suffix_find_rev in P.
  destruct (prefix_find _ (rev text) (rev c)) as [k|] eqn:Ek; [|discriminate]. cbn [option_map] in P.
  assert (Hk : n' <= k).
  { eapply prefix_find_max with (mid := rev mid') (post := rev pre'); [exact Ek| |apply Forall2_rev; exact F'].
    rewrite Ec, !rev_app_distr, rev_spaces, app_assoc. reflexivity. }
  destruct F as (Ec0 & F0 & _). apply Forall2_len in F0. apply (f_equal (@length _)) in Ec0. rewrite !app_length, spaces_length in Ec0.
  apply Forall2_len in F'. apply (f_equal (@length _)) in Ec. rewrite !app_length, spaces_length in Ec.
  injection P as P. lia.
Qed.

Lemma c24_place : forall a o m ps s text c buf d buf',
  metric_reached a o m -> parse_spec s = [[Term false KEqual text]] ->
  find_ranges ps m s c buf = Ok (Some d, buf') ->
  exists n mid k, found_at o text c (spaces n) mid (spaces k) buf (Ok (Some d, buf'))
    /\ forall n' mid' k', c = spaces n' ++ mid' ++ spaces k' -> Forall2 (agreement o text) text mid' -> n' = n /\ mid' = mid /\ k' = k.
Proof.
  intros a o m ps s text c buf d buf' Hm Hs E.
  assert (U : forall n mid k n' mid' k', c = spaces n ++ mid ++ spaces k -> length text = length mid ->
    c = spaces n' ++ mid' ++ spaces k' -> length text = length mid' -> n' = n -> n' = n /\ mid' = mid /\ k' = k).
  { intros n mid k n' mid' k' E1 L1 E2 L2 ->. split; [reflexivity|]. rewrite E1 in E2. apply app_inv_head in E2.
    assert (mid' = mid).
    { transitivity (firstn (length mid) (mid ++ spaces k)); [|apply firstn_app_len]. rewrite E2. symmetry.
      rewrite <- L1, L2. apply firstn_app_len. }
    subst mid'. apply app_inv_head in E2. apply (f_equal (@length _)) in E2. rewrite !spaces_length in E2. auto. }
  destruct (list_eq_dec N.eq_dec text (spaces (length text))) as [Hb|Hb].
  - destruct (c24_blank_equal a o m ps s text c buf Hm Hs Hb) as [[_ E']|[Ec F]]; [congruence|].
    rewrite E in F. exists 0, text, 0. split; [exact F|]. intros n' mid' k' Ec' F'. apply Forall2_len in F'.
    assert (n' = 0) by (apply (f_equal (@length _)) in Ec'; rewrite !app_length, !spaces_length, Ec in Ec'; lia).
    apply U; auto. change (c = text ++ []). rewrite app_nil_r. exact Ec.
  - destruct (c24_equal_partial a o m ps s text c buf Hm Hs Hb) as [[_ E']|(n & mid & k & F)]; [congruence|].
    rewrite E in F. exists n, mid, k. split; [exact F|]. intros n' mid' k' Ec' F'. destruct F as (Ec & F & _).
    assert (L : n' = n).
    { pose proof (lead_match _ _ _ _ (spaces k) F Hb) as L1. pose proof (lead_match _ _ _ _ (spaces k') F' Hb) as L2.
      apply (f_equal lead) in Ec, Ec'. rewrite lead_app in Ec, Ec'. lia. }
    apply U; auto; eapply Forall2_len; eassumption.
Qed.

(** ** C46: the occurrence which an exact term takes *)

Lemma agreed_len_ext f g p : (forall x y, f x y = g x y) -> forall c, agreed_len f p c = agreed_len g p c.
Proof.
  intros H. induction p as [|x p IH]; intros [|y c]; try reflexivity. cbn [agreed_len]. rewrite H, IH. reflexivity.
Qed.

Lemma place_seen_ext f g sch p c : (forall x y, f x y = g x y) -> forall j, place_seen f sch p c j = place_seen g sch p c j.
Proof.
  intros H. induction j as [|i IH]; [reflexivity|]. cbn [place_seen]. rewrite (agreed_len_ext f g p H), IH. reflexivity.
Qed.

Lemma c46_choice : forall a o m ps s text c buf d buf' same,
  metric_reached a o m -> parse_spec s = [[Term false KExact text]] ->
  (forall x y, same x y = true <-> agreement o text x y) ->
  find_ranges ps m s c buf = Ok (Some d, buf') ->
  let bonus := bonus_seen same (opt_scheme o) text c in
  exists pre mid post, found_at o text c pre mid post buf (Ok (Some d, buf'))
    /\ (forall j, occurs_at (agreement o text) text c j -> j < length pre ->
          (bonus j < bonus (length pre) /\ bonus j < 8)%Z)
    /\ ((8 <= bonus (length pre))%Z
        \/ forall j, occurs_at (agreement o text) text c j -> (bonus j <= bonus (length pre))%Z).
Proof.
  intros a o m ps s text c buf d buf' same Hm Hs Hsame E bonus.
  pose proof (single_text _ _ _ _ Hs) as Ht.
  destruct (place_term a o m ps s KExact text c buf Hm Hs) as [[_ E']|(i & pre & mid & post & P & Hi & Hl & F)];
    [discriminate|congruence|].
  rewrite E in F. exists pre, mid, post. split; [exact F|].
  unfold place_found in P. cbn [t_kind t_text] in P.
  apply exact_find_seen in P as (_ & P1 & P2); [|exact Ht]. cbn [pat_of p_text t_text] in P1, P2.
  assert (Hf : forall x y, same x y = char_eq (sensitive_for (opt_case o) text) (opt_norm o) x y).
  { intros x y. pose proof (Hsame x y) as H. pose proof (char_eq_agrees (sensitive_for (opt_case o) text) (opt_norm o) x y) as H'.
    unfold agreement in H. destruct (same x y), (char_eq _ _ x y); try reflexivity; [symmetry; apply H'|apply H]; tauto. }
  assert (Hb : forall j, bonus j = bonus_seen (char_eq (sensitive_for (opt_case o) text) (opt_norm o)) (opt_scheme o) text c j).
  { intros j. unfold bonus, bonus_seen. rewrite (place_seen_ext _ _ _ _ _ Hf). reflexivity. }
  assert (Hocc : forall j, occurs_at (agreement o text) text c j ->
            occ (char_eq (sensitive_for (opt_case o) text) (opt_norm o)) text c j).
  { intros j. apply occurs_at_occ. }
  rewrite <- Hi in *. split.
  - intros j Hj Hlt. rewrite !Hb. apply P1; auto.
  - rewrite Hb. destruct P2 as [P2|P2]; [left; exact P2|right]. intros j Hj. rewrite Hb. auto.
Qed.

End WithUnicode.
