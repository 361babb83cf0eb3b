(** Proofs of C78 and of the parts of C38 and C53 on printed text. *)
From Coq Require Import String.
From Verif Require Import Prelude Chars Utils Query Parser Scoring Fzf FzfV1 FzfV2 Api Usage Debug History
  Spec ParserProofs ApiProofs Claims1 Claims3 Claims7.
Local Open Scope N_scope.

(** ** Numbers *)

Definition digit_value (c : char) : N := if c <? 97 then c - 48 else c - 87.

Lemma digit_value_of d : d < 16 -> digit_value (digit d) = d.
Proof.
  intros H. unfold digit, digit_value. destruct (N.ltb_spec d 10).
  - destruct (N.ltb_spec (48 + d) 97); lia.
  - destruct (N.ltb_spec (87 + d) 97); lia.
Qed.

Definition value (b : N) (s : str) : N := fold_left (fun acc c => acc * b + digit_value c) s 0.

Lemma digits_value b : 2 <= b <= 16 -> forall fuel n, n < 2 ^ N.of_nat fuel -> (0 < fuel)%nat -> value b (digits fuel b n) = n.
Proof.
  intros Hb. induction fuel as [|fuel IH]; intros n Hn Hf; [lia|]. cbn [digits].
  destruct (N.ltb_spec n b) as [H|H].
  - unfold value. cbn [fold_left]. rewrite digit_value_of by lia. lia.
  - unfold value. rewrite fold_left_app. cbn [fold_left]. fold (value b (digits fuel b (n / b))).
    assert (Hd : n / b <= n / 2) by (apply N.div_le_compat_l; lia).
    rewrite Nat2N.inj_succ, N.pow_succ_r' in Hn.
    assert (n / 2 < 2 ^ N.of_nat fuel) by (apply N.div_lt_upper_bound; lia).
    destruct fuel as [|fuel]; [cbn in Hn; lia|].
    rewrite IH by lia. pose proof (N.mod_lt n b ltac:(lia)). rewrite digit_value_of by lia.
    rewrite (N.div_mod n b) at 3 by lia. lia.
Qed.

Lemma number_value b n : 2 <= b <= 16 -> value b (number b n) = n.
Proof.
  intros Hb. apply digits_value; [exact Hb| |lia]. rewrite Nat2N.inj_add, N2Nat.id.
  pose proof (N.size_gt n). rewrite N.pow_add_r. change (N.of_nat 1) with 1. lia.
Qed.

Lemma number_inj b n n' : 2 <= b <= 16 -> number b n = number b n' -> n = n'.
Proof. intros Hb H. rewrite <- (number_value b n Hb), <- (number_value b n' Hb). congruence. Qed.

(** Digits are none of the other characters which are printed. *)
Definition is_digit (c : char) : Prop := (48 <= c <= 57) \/ (97 <= c <= 102).

Lemma digits_digits b : 2 <= b <= 16 -> forall fuel n, Forall is_digit (digits fuel b n).
Proof.
  intros Hb. induction fuel as [|fuel IH]; intros n; cbn [digits]; [constructor|].
  assert (D : forall d, d < 16 -> is_digit (digit d)).
  { intros d Hd. unfold digit, is_digit. destruct (N.ltb_spec d 10); lia. }
  destruct (N.ltb_spec n b) as [H|H]; [constructor; [apply D; lia|constructor]|].
  apply Forall_app. split; [apply IH|]. constructor; [|constructor]. apply D. pose proof (N.mod_lt n b ltac:(lia)). lia.
Qed.

Lemma number_digits b n : 2 <= b <= 16 -> Forall is_digit (number b n).
Proof. intros Hb. apply digits_digits. exact Hb. Qed.

Lemma digits_end u u' x r r' : ~ is_digit x -> Forall is_digit u -> Forall is_digit u' ->
  u ++ x :: r = u' ++ x :: r' -> u = u' /\ r = r'.
Proof.
  intros Hx. revert u'. induction u as [|c u IH]; intros [|c' u'] H H' E; cbn [app] in E.
  - injection E as ->. auto.
  - injection E as <- _. inversion H'; subst. contradiction.
  - injection E as -> _. inversion H; subst. contradiction.
  - injection E as <- E. inversion H; inversion H'; subst. destruct (IH u') as [-> ->]; auto.
Qed.

Lemma number_end b n n' x r r' : 2 <= b <= 16 -> ~ is_digit x -> number b n ++ x :: r = number b n' ++ x :: r' -> n = n' /\ r = r'.
Proof.
  intros Hb Hx E. apply digits_end in E as [E ->]; auto using number_digits. split; [|reflexivity].
  eapply number_inj; eauto.
Qed.

Lemma number_cons b n : exists c u, number b n = c :: u.
Proof.
  unfold number. rewrite Nat.add_1_r. cbn [digits]. destruct (n <? b); [eauto|].
  destruct (digits _ b (n / b)) as [|c u]; cbn [app]; eauto.
Qed.

Lemma integer_end z z' x r r' : ~ is_digit x -> integer z ++ x :: r = integer z' ++ x :: r' -> z = z' /\ r = r'.
Proof.
  intros Hx. unfold integer.
  assert (M : forall n u, number 10 n <> 45 :: u).
  { intros n u E. pose proof (number_digits 10 n ltac:(lia)) as F. rewrite E in F. inversion F as [|? ? D _]; subst.
    unfold is_digit in D. lia. }
  assert (M' : forall n u v, number 10 n ++ u <> 45 :: v).
  { intros n u v E. destruct (number_cons 10 n) as (c & w & Ec). rewrite Ec in E. cbn [app] in E.
    apply (f_equal (hd 0)) in E. cbn [hd] in E. subst c. apply (M n w Ec). }
  destruct (Z.ltb_spec z 0); destruct (Z.ltb_spec z' 0); cbn [app]; intros E.
  - injection E as E. apply number_end in E as [E ->]; [|lia|exact Hx]. split; [lia|reflexivity].
  - symmetry in E. apply M' in E. contradiction.
  - apply M' in E. contradiction.
  - apply number_end in E as [E ->]; [|lia|exact Hx]. split; [lia|reflexivity].
Qed.

Lemma c38_debug : forall d d', distance_debug d = distance_debug d' -> d = d'.
Proof.
  intros [z] [z'] E. unfold distance_debug in E. apply app_inv_head in E. apply integer_end in E as [-> _]; [reflexivity|].
  unfold is_digit. lia.
Qed.

(** ** Strings *)
Section Print.
Variable pr : char -> bool.
Notation esc := (escape_char pr).
Notation quoted := (str_debug pr).

(** The ways in which a character is printed. *)
Lemma escape_cases c : esc c = [c] /\ c <> 92 /\ c <> 34
  \/ (exists k, esc c = [92; k] /\ k <> 117 /\ In (k, c) [(48, 0); (116, 9); (114, 13); (110, 10); (92, 92); (34, 34)])
  \/ esc c = [92; 117; 123] ++ number 16 c ++ [125].
Proof.
  unfold escape_char.
  destruct (N.eqb_spec c 0) as [->|]; [right; left; exists 48; cbn; intuition lia|].
  destruct (N.eqb_spec c 9) as [->|]; [right; left; exists 116; cbn; intuition lia|].
  destruct (N.eqb_spec c 13) as [->|]; [right; left; exists 114; cbn; intuition lia|].
  destruct (N.eqb_spec c 10) as [->|]; [right; left; exists 110; cbn; intuition lia|].
  destruct (N.eqb_spec c 92) as [->|]; [right; left; exists 92; cbn; intuition lia|].
  destruct (N.eqb_spec c 34) as [->|]; [right; left; exists 34; cbn; intuition lia|].
  destruct (pr c); auto.
Qed.

Lemma key_inj k c c' : In (k, c) [(48, 0); (116, 9); (114, 13); (110, 10); (92, 92); (34, 34)] ->
  In (k, c') [(48, 0); (116, 9); (114, 13); (110, 10); (92, 92); (34, 34)] -> c = c'.
Proof.
  intros H H'. cbn in H, H'.
  repeat (destruct H as [H|H]; [injection H as <- <-|]); [..|contradiction];
    repeat (destruct H' as [H'|H']; [try discriminate H'; injection H' as <-; reflexivity|]); contradiction.
Qed.

Lemma esc_inj c c' t t' : esc c ++ t = esc c' ++ t' -> c = c' /\ t = t'.
Proof.
  destruct (escape_cases c) as [(-> & H1 & H2)|[(k & -> & Hk & Hc)| ->]];
    destruct (escape_cases c') as [(-> & H1' & H2')|[(k' & -> & Hk' & Hc')| ->]];
    rewrite <- ?app_assoc; cbn [app]; intros E; try (injection E as E1 E2; congruence); try (injection E as E1; congruence).
  - injection E as <- <-. auto.
  - injection E as <- <-. split; [eapply key_inj; eassumption|reflexivity].
  - injection E as E. apply number_end in E as [-> ->]; [auto|lia|unfold is_digit; lia].
Qed.

Lemma esc_head c t r : esc c ++ t <> 34 :: r.
Proof.
  destruct (escape_cases c) as [(-> & H1 & H2)|[(k & -> & Hk & Hc)| ->]]; cbn [app]; intros E; injection E as E; congruence.
Qed.

Lemma escaped_end s s' r r' : flat_map esc s ++ 34 :: r = flat_map esc s' ++ 34 :: r' -> s = s' /\ r = r'.
Proof.
  revert s'. induction s as [|c s IH]; intros [|c' s'] E; cbn [flat_map app] in E.
  - injection E as ->. auto.
  - rewrite <- app_assoc in E. symmetry in E. apply esc_head in E. contradiction.
  - rewrite <- app_assoc in E. apply esc_head in E. contradiction.
  - rewrite <- !app_assoc in E. apply esc_inj in E as [-> E]. apply IH in E as [-> ->]. auto.
Qed.

Lemma quoted_end s s' r r' : quoted s ++ r = quoted s' ++ r' -> s = s' /\ r = r'.
Proof.
  unfold str_debug. cbn [app]. rewrite <- !app_assoc. cbn [app]. intros E. injection E as E. apply escaped_end. exact E.
Qed.

(** ** Conditions *)

Lemma joined_end (ps ps' : list str) r r' : ps <> [] -> ps' <> [] ->
  join_with (str_of " || ") (map quoted ps) ++ 41 :: r = join_with (str_of " || ") (map quoted ps') ++ 41 :: r' ->
  ps = ps' /\ r = r'.
Proof.
  revert ps'. induction ps as [|p ps IH]; intros [|p' ps'] H H' E; try congruence. clear H H'.
  destruct ps as [|p2 ps]; destruct ps' as [|p2' ps'].
  - cbn [map join_with] in E. apply quoted_end in E as [-> E]. injection E as ->. auto.
  - cbn [map join_with] in E. rewrite <- !app_assoc in E. apply quoted_end in E as [_ E]. discriminate E.
  - cbn [map join_with] in E. rewrite <- !app_assoc in E. apply quoted_end in E as [_ E]. discriminate E.
  - change (join_with ?s (map quoted (?a :: ?b :: ?l))) with (quoted a ++ s ++ join_with s (map quoted (b :: l))) in E.
    rewrite <- !app_assoc in E. apply quoted_end in E as [-> E]. apply app_inv_head in E.
    apply IH in E as [-> ->]; [auto|discriminate..].
Qed.

Lemma condition_end (c c' : condition) r r' : c <> [] -> c' <> [] ->
  condition_debug pr c ++ r = condition_debug pr c' ++ r' -> map p_text c = map p_text c' /\ r = r'.
Proof.
  intros H H'.
  assert (M : forall (l : list pattern), map (fun p => quoted (p_text p)) l = map quoted (map p_text l)).
  { intros l. symmetry. apply map_map. }
  destruct c as [|p [|p2 c]]; try congruence; destruct c' as [|p' [|p2' c']]; try congruence; unfold condition_debug.
  - intros E. apply quoted_end in E as [E ->]. cbn [map]. rewrite E. auto.
  - discriminate.
  - discriminate.
  - intros E. rewrite !M, <- !app_assoc in E. apply app_inv_head in E. cbn [app] in E.
    apply joined_end in E as [E ->]; [|discriminate..]. rewrite E. auto.
Qed.

Lemma condition_not_nil c : c <> [] -> condition_debug pr c <> [].
Proof. destruct c as [|p [|p2 c]]; intros; [congruence|discriminate..]. Qed.

Lemma conditions_end (cs cs' : list condition) : Forall (fun c => c <> []) cs -> Forall (fun c => c <> []) cs' ->
  join_with (str_of " && ") (map (condition_debug pr) cs) = join_with (str_of " && ") (map (condition_debug pr) cs') ->
  map (map p_text) cs = map (map p_text) cs'.
Proof.
  intros H. revert cs'. induction H as [|c cs Hc H IH]; intros cs' H' E.
  - destruct H' as [|c' cs' Hc' H']; [reflexivity|]. exfalso. symmetry in E. cbn [map] in E.
    apply condition_not_nil in Hc'. destruct cs'; cbn [map join_with] in E; destruct (condition_debug pr c'); [congruence|discriminate E|congruence|discriminate E].
  - destruct H' as [|c' cs' Hc' H'].
    + exfalso. cbn [map] in E.
      apply condition_not_nil in Hc. destruct cs; cbn [map join_with] in E; destruct (condition_debug pr c); [congruence|discriminate E|congruence|discriminate E].
    + destruct cs as [|c2 cs]; destruct cs' as [|c2' cs'].
      * cbn [map join_with] in E. rewrite <- (app_nil_r (condition_debug pr c)), <- (app_nil_r (condition_debug pr c')) in E.
        apply condition_end in E as [E _]; auto. cbn [map]. rewrite E. reflexivity.
      * cbn [map join_with] in E. rewrite <- (app_nil_r (condition_debug pr c)) in E.
        apply condition_end in E as [_ E]; auto. discriminate E.
      * cbn [map join_with] in E. rewrite <- (app_nil_r (condition_debug pr c')) in E.
        apply condition_end in E as [_ E]; auto. discriminate E.
      * change (join_with ?s (map ?f (?a :: ?b :: ?l))) with (f a ++ s ++ join_with s (map f (b :: l))) in E.
        apply condition_end in E as [E1 E]; auto. apply app_inv_head in E.
        apply IH in E; [|exact H']. cbn [map] in E |- *. rewrite E1, E. reflexivity.
Qed.

End Print.

Section WithUnicode.
Context {UC : unicode}.

(** ** C78 *)

Definition lone_fuzzy (q : cnf) : Prop := exists neg text, q = [[Term neg KFuzzy text]].

Lemma lone_fuzzy_dec q : lone_fuzzy q \/ ~ lone_fuzzy q.
Proof.
  destruct q as [|[|[neg k text] [|t g]] [|g' q]];
    try (right; intros (n & t0 & E); discriminate E).
  destruct k; [left; exists neg, text; reflexivity|right; intros (n & t0 & E); discriminate E..].
Qed.

Lemma query_of_extended q : ~ lone_fuzzy q -> query_of q = Extended (map (map pat_of) q).
Proof.
  intros H. unfold query_of. destruct q as [|[|[neg k text] [|t g]] [|g' q]]; try reflexivity; try (destruct k; reflexivity).
  destruct k; try reflexivity. exfalso. apply H. exists neg, text. reflexivity.
Qed.

Lemma debug_field pr q s s' : query_debug pr q = str_of "FzfQuery(" ++ str_debug pr s ++ [41] ->
  query_debug pr q = str_of "FzfQuery(" ++ str_debug pr s' ++ [41] -> s = s'.
Proof.
  intros -> E. apply app_inv_head in E. apply quoted_end in E as [E _]. exact E.
Qed.

Lemma pat_of_texts q : map (map p_text) (map (map pat_of) q) = map (map t_text) q.
Proof.
  rewrite map_map. apply map_ext. intros g. rewrite map_map. apply map_ext. intros t. reflexivity.
Qed.

Lemma c78_texts : forall pr ps ps' s s' q q' n n', parse ps s = Ok (q, n) -> parse ps' s' = Ok (q', n') ->
  (lone_fuzzy (parse_spec s) <-> lone_fuzzy (parse_spec s')) ->
  (query_debug pr q = query_debug pr q' <-> map (map t_text) (parse_spec s) = map (map t_text) (parse_spec s')).
Proof.
  intros pr ps ps' s s' q q' n n' E E' L.
  destruct (parse_correct ps s) as (p1 & E1 & _). rewrite E in E1. injection E1 as -> _.
  destruct (parse_correct ps' s') as (p2 & E2 & _). rewrite E' in E2. injection E2 as -> _.
  destruct (lone_fuzzy_dec (parse_spec s)) as [Hl|Hl].
  - destruct (proj1 L Hl) as (neg' & text' & ->). destruct Hl as (neg & text & ->). cbn [query_of].
    split; intros H.
    + apply app_inv_head in H. apply quoted_end in H as [H _]. cbn in *. congruence.
    + cbn in H. injection H as ->. reflexivity.
  - assert (Hl' : ~ lone_fuzzy (parse_spec s')) by tauto.
    rewrite !query_of_extended by assumption. split; intros H.
    + apply app_inv_head in H. apply quoted_end in H as [H _]. apply conditions_end in H.
      * rewrite !pat_of_texts in H. exact H.
      * apply Forall_map. eapply Forall_impl; [|apply parse_spec_ok]. intros g Hg E0. destruct g; [congruence|discriminate E0].
      * apply Forall_map. eapply Forall_impl; [|apply parse_spec_ok]. intros g Hg E0. destruct g; [congruence|discriminate E0].
    + unfold query_debug. do 3 f_equal.
      assert (X : forall c, map (condition_debug pr) (map (map pat_of) c)
                = map (fun ts => condition_debug pr (map (fun t => MkPattern t false Fuzzy false 0 0) ts)) (map (map t_text) c)).
      { intros c. rewrite !map_map. apply map_ext. intros g.
        destruct g as [|t [|t2 g]]; [reflexivity|reflexivity|]. unfold condition_debug.
        cbn [map]. do 3 f_equal. cbn [map p_text pat_of mk_pattern]. f_equal. f_equal.
        rewrite !map_map. reflexivity. }
      rewrite !X, H. reflexivity.
Qed.
(** ** C53 *)

Lemma metric_text_inj m m' : metric_debug m <> None -> metric_debug m' <> None ->
  metric_text m = metric_text m' -> metric_debug m = metric_debug m'.
Proof.
  unfold metric_text. destruct (metric_debug m) as [[[[a n] c] sch]|]; [|congruence].
  destruct (metric_debug m') as [[[[a' n'] c'] sch']|]; [|congruence]. intros _ _.
  destruct a, n, c, sch; destruct a', n', c', sch'; intros E; try reflexivity; discriminate E.
Qed.

Lemma c53_text : forall a o m, metric_reached a o m ->
  metric_text m =
    str_of (match a with AlgoV1 => "FzfV1" | AlgoV2 => "FzfV2" end)
    ++ str_of " { candidate_normalization: " ++ str_of (if opt_norm o then "true" else "false")
    ++ str_of ", case_sensitivity: "
    ++ str_of (match opt_case o with Sensitive => "Sensitive" | Insensitive => "Insensitive" | Smart => "Smart" end)
    ++ str_of ", scoring_scheme: "
    ++ str_of (match opt_scheme o with SchemeDefault => "Default" | SchemePath => "Path" | SchemeHistory => "History" end)
    ++ str_of ", .. }".
Proof.
  intros a o m H. unfold metric_text. rewrite (debug_options a o m H).
  destruct a, (opt_norm o), (opt_case o), (opt_scheme o); reflexivity.
Qed.

Lemma c53_text_determines : forall a o a' o' m m' q c buf, metric_reached a o m -> metric_reached a' o' m' -> query_reached q ->
  metric_text m = metric_text m' ->
  exists d new n n', metric_distance_and_ranges m q c buf = Ok (d, n, buf ++ new) /\ metric_distance_and_ranges m' q c buf = Ok (d, n', buf ++ new).
Proof.
  intros a o a' o' m m' q c buf H H' Hq E. eapply debug_determines; try eassumption.
  apply metric_text_inj; [rewrite (debug_options a o m H)|rewrite (debug_options a' o' m' H')|exact E]; discriminate.
Qed.

End WithUnicode.
