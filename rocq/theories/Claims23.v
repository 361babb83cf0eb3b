(** Lemmas for property C86: the texts which printing produces are free of control characters, and the
    alternate form is the usual one broken into lines. *)
From Coq Require Import String Lia.
From Verif Require Import Prelude Chars Utils Query Parser Scoring Fzf FzfV1 FzfV2 Api Usage Debug History Spec.
From Verif Require Import Claims1 Claims7 Claims17 PrintSpec.
Local Open Scope N_scope.

Section shown.
Context (pr : char -> bool).

Lemma shown_ascii c : 32 <= c -> c <= 126 -> harmless pr c.
Proof. left. split; assumption. Qed.

Lemma shown_str s : forallb (fun c => (32 <=? c) && (c <=? 126)) s = true -> Forall (harmless pr) s.
Proof.
  intros H. apply Forall_forall. intros c I. rewrite forallb_forall in H. specialize (H c I).
  apply Bool.andb_true_iff in H. destruct H as [A B]. apply N.leb_le in A, B. left. split; assumption.
Qed.

Lemma shown_digits u : Forall is_digit u -> Forall (harmless pr) u.
Proof. apply Forall_impl. intros c D. unfold is_digit in D. left. lia. Qed.

Lemma shown_escape c : Forall (harmless pr) (escape_char pr c).
Proof.
  unfold escape_char.
  destruct (c =? 0) eqn:E0; [apply shown_str; reflexivity|].
  destruct (c =? 9) eqn:E1; [apply shown_str; reflexivity|].
  destruct (c =? 13) eqn:E2; [apply shown_str; reflexivity|].
  destruct (c =? 10) eqn:E3; [apply shown_str; reflexivity|].
  destruct (c =? 92) eqn:E4; [apply shown_str; reflexivity|].
  destruct (c =? 34) eqn:E5; [apply shown_str; reflexivity|].
  apply N.eqb_neq in E0, E1, E2, E3.
  destruct (pr c) eqn:P.
  - constructor; [|constructor]. right. repeat split; assumption.
  - apply Forall_app. split; [apply shown_str; reflexivity|]. apply Forall_app. split; [|apply shown_str; reflexivity].
    apply shown_digits, number_digits. lia.
Qed.

Lemma shown_quoted s : Forall (harmless pr) (str_debug pr s).
Proof.
  unfold str_debug. constructor; [left; lia|]. apply Forall_app. split; [|constructor; [left; lia|constructor]].
  induction s as [|c s IH]; [constructor|]. cbn [flat_map]. apply Forall_app. split; [apply shown_escape|exact IH].
Qed.

Lemma c86_shown : forall q, Forall (harmless pr) (query_debug pr q).
Proof.
  intros q. unfold query_debug. apply Forall_app. split; [apply shown_str; reflexivity|].
  apply Forall_app. split; [apply shown_quoted|constructor; [left; lia|constructor]].
Qed.
End shown.

(** ** Lines *)

Lemma pad_line s r : ~ In 10 s -> pad false (s ++ 10 :: r) = s ++ 10 :: pad true r.
Proof.
  induction s as [|c s IH]; intros N; [reflexivity|]. cbn [app pad].
  assert (C : (c =? 10) = false) by (apply N.eqb_neq; intros ->; apply N; left; reflexivity).
  rewrite C, IH; [reflexivity|]. intros I. apply N. right. exact I.
Qed.

Lemma pad_one s : s <> [] -> ~ In 10 s -> pad true (s ++ [10]) = str_of "    " ++ s ++ [10].
Proof.
  destruct s as [|c s]; [congruence|]. intros _ N. cbn [app pad].
  assert (C : (c =? 10) = false) by (apply N.eqb_neq; intros ->; apply N; left; reflexivity).
  rewrite C. rewrite pad_line by (intros I; apply N; right; exact I). reflexivity.
Qed.

Lemma shown_no_break pr s : Forall (harmless pr) s -> ~ In 10 s.
Proof. intros F I. rewrite Forall_forall in F. destruct (F _ I) as [L|(_ & _ & _ & L & _)]; [lia|congruence]. Qed.

Lemma tuple_lines name field : ~ In 10 field ->
  tuple_pretty name field = name ++ str_of "(" ++ [10] ++ str_of "    " ++ field ++ str_of "," ++ [10] ++ str_of ")".
Proof.
  intros N. unfold tuple_pretty. rewrite (app_assoc field). rewrite pad_one; [rewrite <- !app_assoc; reflexivity| |].
  - destruct field; discriminate.
  - rewrite in_app_iff. intros [I|[I|[]]]; [exact (N I)|discriminate I].
Qed.

Lemma c86_pretty : forall pr q, exists field,
  query_debug pr q = str_of "FzfQuery(" ++ field ++ str_of ")"
  /\ query_pretty pr q = str_of "FzfQuery(" ++ [10] ++ str_of "    " ++ field ++ str_of "," ++ [10] ++ str_of ")"
  /\ ~ In 10 field.
Proof.
  intros pr q. set (s := match q with
    | Extended conditions => join_with (str_of " && ") (map (condition_debug pr) conditions)
    | NotExtended p => p_text p end).
  exists (str_debug pr s). assert (N : ~ In 10 (str_debug pr s)) by exact (shown_no_break pr _ (shown_quoted pr s)).
  split; [reflexivity|]. split; [|exact N].
  change (query_pretty pr q) with (tuple_pretty (str_of "FzfQuery") (str_debug pr s)).
  rewrite tuple_lines by exact N. reflexivity.
Qed.

Lemma c86_same : forall pr q q', query_pretty pr q = query_pretty pr q' <-> query_debug pr q = query_debug pr q'.
Proof.
  intros pr q q'. destruct (c86_pretty pr q) as (f & D & P & _). destruct (c86_pretty pr q') as (f' & D' & P' & _).
  rewrite D, P, D', P'. split; intros E.
  - do 3 apply app_inv_head in E. apply app_inv_tail in E. rewrite E. reflexivity.
  - apply app_inv_head in E. apply app_inv_tail in E. rewrite E. reflexivity.
Qed.

Lemma integer_no_break z : ~ In 10 (integer z).
Proof.
  assert (D : forall n, ~ In 10 (number 10 n)).
  { intros n I. pose proof (number_digits 10 n ltac:(lia)) as F. rewrite Forall_forall in F. specialize (F _ I).
    unfold is_digit in F. lia. }
  unfold integer. destruct (z <? 0)%Z; [|apply D]. intros [E|I]; [discriminate E|exact (D _ I)].
Qed.

Lemma numeral_digits : forall fuel n, n < 2 ^ N.of_nat fuel -> (0 < fuel)%nat -> numeral n (digits fuel 10 n).
Proof.
  induction fuel as [|fuel IH]; intros n B P; [lia|]. cbn [digits].
  assert (D : forall d, d < 10 -> digit d = 48 + d) by (intros d Hd; unfold digit; destruct (N.ltb_spec d 10); lia).
  destruct (N.ltb_spec n 10) as [L|L].
  - rewrite D by exact L. repeat split.
    + constructor; [lia|constructor].
    + discriminate.
    + cbn [hd]. intros ->. reflexivity.
    + cbn [fold_left]. lia.
  - pose proof (N.mod_lt n 10 ltac:(lia)) as M. pose proof (N.div_mod n 10 ltac:(lia)) as DM.
    assert (Q : n / 10 < 2 ^ N.of_nat fuel).
    { replace (N.of_nat (S fuel)) with (N.succ (N.of_nat fuel)) in B by lia. rewrite N.pow_succ_r' in B.
      apply N.div_lt_upper_bound; lia. }
    assert (F : (0 < fuel)%nat).
    { destruct fuel; [|lia]. cbn in B. lia. }
    destruct (IH (n / 10) Q F) as (A1 & A2 & A3 & A4). rewrite D by exact M. repeat split.
    + apply Forall_app. split; [exact A1|]. constructor; [lia|constructor].
    + destruct (digits fuel 10 (n / 10)); discriminate.
    + destruct (digits fuel 10 (n / 10)) as [|c ds]; [congruence|]. cbn [app hd] in *. intros E.
      specialize (A3 E). injection A3 as -> ->. cbn [fold_left] in A4. exfalso.
      assert (n / 10 <> 0) by (intros Z; apply N.div_small_iff in Z; lia). lia.
    + rewrite fold_left_app, A4. cbn [fold_left]. lia.
Qed.

Lemma number_numeral n : numeral n (number 10 n).
Proof.
  apply numeral_digits; [|lia]. rewrite Nat2N.inj_add, N2Nat.id.
  pose proof (N.size_gt n) as G. apply (N.lt_le_trans _ _ _ G). apply N.pow_le_mono_r; lia.
Qed.

Lemma c38_texts : forall z, exists ds, numeral (Z.abs_N z) ds
  /\ distance_debug (Distance z) = str_of "FzfDistance(" ++ str_of (if (z <? 0)%Z then "-" else "") ++ ds ++ str_of ")"
  /\ distance_pretty (Distance z)
     = str_of "FzfDistance(" ++ [10] ++ str_of "    " ++ str_of (if (z <? 0)%Z then "-" else "") ++ ds ++ str_of "," ++ [10] ++ str_of ")".
Proof.
  intros z. exists (number 10 (Z.abs_N z)). split; [apply number_numeral|].
  assert (I : integer z = str_of (if (z <? 0)%Z then "-" else "") ++ number 10 (Z.abs_N z)).
  { unfold integer. destruct (Z.ltb_spec z 0).
    - replace (Z.to_N (- z)) with (Z.abs_N z) by lia. reflexivity.
    - replace (Z.to_N z) with (Z.abs_N z) by lia. reflexivity. }
  split.
  - unfold distance_debug. rewrite I, <- app_assoc. reflexivity.
  - unfold distance_pretty. rewrite tuple_lines by apply integer_no_break. rewrite I, <- !app_assoc. reflexivity.
Qed.

Section metric.
Context {UC : unicode}.

Lemma c53_pretty : forall a o m, metric_reached a o m ->
  metric_pretty m =
    str_of (match a with AlgoV1 => "FzfV1 {" | AlgoV2 => "FzfV2 {" end) ++ [10]
    ++ str_of (if opt_norm o then "    candidate_normalization: true," else "    candidate_normalization: false,") ++ [10]
    ++ str_of (match opt_case o with
               | Sensitive => "    case_sensitivity: Sensitive,"
               | Insensitive => "    case_sensitivity: Insensitive,"
               | Smart => "    case_sensitivity: Smart," end) ++ [10]
    ++ str_of (match opt_scheme o with
               | SchemeDefault => "    scoring_scheme: Default,"
               | SchemePath => "    scoring_scheme: Path,"
               | SchemeHistory => "    scoring_scheme: History," end) ++ [10]
    ++ str_of "    .." ++ [10] ++ str_of "}".
Proof.
  intros a o m R. unfold metric_pretty. rewrite (debug_options a o m R).
  destruct a, (opt_norm o), (opt_case o), (opt_scheme o); reflexivity.
Qed.
End metric.
