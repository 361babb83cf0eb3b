(** Proofs of C85: which queries can be written; and of C50 for characters inserted anywhere. *)
From Coq Require Import Sorted.
From Verif Require Import Prelude Chars Utils Query Parser Api History Spec PreludeProofs ParserProofs ApiProofs AcceptProofs WordsProofs
  FuzzyFacts Claims1 Claims2 Claims3 Claims4 Typing Writing.
Local Open Scope nat_scope.

(** ** Words *)

(** No backslash before a separator *)
Fixpoint no_open (l : list token) : Prop :=
  match l with
  | [] => True
  | Sep :: l' => no_open l'
  | Lit c :: l' => match l' with Sep :: _ => c <> 92%N | _ => True end /\ no_open l'
  end.

Lemma no_open_sep l : no_open (Sep :: l) <-> no_open l.
Proof. reflexivity. Qed.

Lemma no_open_lit c l : no_open l -> (forall l', l = Sep :: l' -> c <> 92%N) -> no_open (Lit c :: l).
Proof. intros H1 H2. split; [|exact H1]. destruct l as [|[d|] l]; [exact I|exact I|]. eapply H2; reflexivity. Qed.

Lemma no_open_tail c l : no_open (Lit c :: l) -> no_open l.
Proof. intros H. exact (proj2 H). Qed.

Lemma tokens_no_open q : no_open (tokens q).
Proof.
  assert (G : forall n q, length q <= n -> no_open (tokens q)).
  { clear q. induction n as [|n IH]; intros [|c q] H; try exact I; [cbn in H; lia|]. cbn [length] in H. cbn [tokens].
    destruct (c =? 32)%N; [apply IH; lia|]. destruct q as [|d q]; [split; exact I|]. cbn [length] in H.
    destruct ((c =? 92)%N && (d =? 32)%N) eqn:E.
    - apply no_open_lit; [apply IH; lia|]. intros; discriminate.
    - apply no_open_lit; [apply IH; cbn [length]; lia|]. intros l' El ->. cbn [tokens] in El. destruct (d =? 32)%N eqn:Ed.
      + discriminate E.
      + destruct q as [|e q]; [discriminate|]. destruct ((d =? 92)%N && (e =? 32)%N); discriminate. }
  apply (G (length q)). lia.
Qed.

Lemma split_nonempty l : split l <> [].
Proof. destruct l as [|[c|] l]; cbn [split]; try discriminate. destruct (split l); discriminate. Qed.

Lemma removelast_cons {A} (x : A) l : l <> [] -> removelast (x :: l) = x :: removelast l.
Proof. destruct l; [contradiction|reflexivity]. Qed.

Lemma split_closed l : no_open l -> Forall (fun w => last w 0%N <> 92%N) (removelast (split l)).
Proof.
  induction l as [|[c|] l IH]; intros H; [constructor| |].
  - specialize (IH (no_open_tail _ _ H)). cbn [split]. destruct (split l) as [|w ws] eqn:E; [constructor|].
    destruct ws as [|v ws]; [constructor|]. rewrite removelast_cons in * by discriminate.
    inversion IH as [|? ? H1 H2]; subst. constructor; [|exact H2]. destruct w as [|d w]; [|exact H1].
    destruct l as [|[d|] l]; cbn [split] in E; [discriminate|destruct (split l); discriminate|]. exact (proj1 H).
  - cbn [split]. rewrite removelast_cons by apply split_nonempty. constructor; [discriminate|]. apply IH. exact H.
Qed.

Lemma removelast_filter {A} (f : A -> bool) l x : In x (removelast (filter f l)) -> In x (removelast l).
Proof.
  induction l as [|y l IH]; [intros []|]. destruct l as [|z l].
  - cbn [filter]. destruct (f y); intros [].
  - rewrite (removelast_cons y (z :: l)) by discriminate. change (filter f (y :: z :: l)) with
      (if f y then y :: filter f (z :: l) else filter f (z :: l)).
    destruct (f y); [|intros H; right; apply IH; exact H].
    destruct (filter f (z :: l)) as [|u v] eqn:E; [intros []|]. rewrite removelast_cons by discriminate.
    intros [->|H]; [left; reflexivity|right; apply IH; exact H].
Qed.

Lemma words_closed s : Forall (fun w => last w 0%N <> 92%N) (removelast (words_of s)).
Proof.
  apply Forall_forall. intros w H. unfold words_of in H. apply removelast_filter in H.
  pose proof (split_closed _ (tokens_no_open s)) as F. rewrite Forall_forall in F. apply F. exact H.
Qed.

Lemma words_nonempty s : Forall (fun w => w <> []) (words_of s).
Proof.
  apply Forall_forall. intros w H. unfold words_of in H. apply filter_In in H as [_ H]. destruct w; discriminate.
Qed.

Lemma c85_words ws : (exists s, words_of s = ws) <->
  Forall (fun w => w <> []) ws /\ Forall (fun w => last w 0%N <> 92%N) (removelast ws).
Proof.
  split.
  - intros (s & <-). split; [apply words_nonempty|apply words_closed].
  - intros [H1 H2]. exists (print_words ws). apply words_of_print; assumption.
Qed.

(** ** Terms *)

Lemma dollar_add w : w <> [] -> dollar (w ++ [36%N]) = (true, w).
Proof.
  intros H. unfold dollar. rewrite last_last, removelast_last. destruct w as [|c [|d w]]; [contradiction|reflexivity..].
Qed.

Lemma dollar_none w : last w 0%N <> 36%N \/ w = [36%N] -> dollar w = (false, w).
Proof.
  intros [H| ->]; [|reflexivity]. unfold dollar. destruct w as [|c [|d w]]; try reflexivity.
  destruct (N.eqb_spec (last (c :: d :: w) 0%N) 36); [contradiction|reflexivity].
Qed.

Lemma open_none w : ~ In (hd 0%N w) [39; 94]%N -> open_sigil w = (ONone, w).
Proof.
  intros H. destruct w as [|c w]; [reflexivity|]. cbn [hd In] in H. cbn [open_sigil].
  destruct (N.eqb_spec c 39); [subst; tauto|]. destruct (N.eqb_spec c 94); [subst; tauto|reflexivity].
Qed.

Lemma bang_none w : hd 0%N w <> 33%N -> bang w = (false, w).
Proof. intros H. destruct w as [|c w]; [reflexivity|]. cbn [hd] in H. cbn [bang]. destruct (N.eqb_spec c 33); [contradiction|reflexivity]. Qed.

(** What [bang] leaves of the word for a term *)
Lemma write_bang t : writable t -> bang (write_term t) = (t_neg t, snd (bang (write_term t))) /\
  snd (bang (write_term t)) = match t_neg t, t_kind t with
     | false, KFuzzy | true, KExact => t_text t
     | false, KExact | true, KFuzzy => 39%N :: t_text t ++ [36%N]
     | _, KPrefix => 94%N :: t_text t
     | _, KSuffix => t_text t ++ [36%N]
     | _, KEqual => 94%N :: t_text t ++ [36%N]
     end.
Proof.
  intros [H1 H2]. destruct t as [[] k text]; cbn [t_neg t_kind t_text] in *; [split; reflexivity|].
  assert (B : bang (write_term (Term false k text)) = (false, write_term (Term false k text))).
  { apply bang_none. unfold write_term. cbn [t_neg t_kind t_text app]. destruct k; try discriminate.
    - intros E. apply (proj1 H2). left. symmetry. exact E.
    - intros E. apply H2. left. destruct text; [contradiction|symmetry; exact E]. }
  rewrite B. cbn [snd]. split; [reflexivity|]. reflexivity.
Qed.

Lemma write_term_ok t : writable t -> is_term (write_term t) = Some t.
Proof.
  intros H. destruct (write_bang t H) as [B1 B2]. unfold is_term. assert (NB : is_bar (write_term t) = false).
  { destruct H as [H1 H2]. unfold write_term. destruct t as [[] k text]; cbn [t_neg t_kind t_text app] in *.
    - destruct k; try reflexivity; destruct text as [|c text]; try contradiction; reflexivity.
    - destruct k.
      + destruct H2 as (_ & _ & H2). destruct text as [|c [|d text]]; try reflexivity. cbn [is_bar].
        destruct (N.eqb_spec c 124); [subst; contradiction|reflexivity].
      + destruct text; reflexivity.
      + destruct text as [|c text]; [contradiction|reflexivity].
      + destruct text as [|c [|d text]]; [contradiction|reflexivity..].
      + destruct text; reflexivity. }
  rewrite NB. unfold term_of. rewrite B1, B2. clear B1 B2 NB. destruct H as [H1 H2].
  destruct t as [neg k text]; cbn [t_neg t_kind t_text] in *.
  assert (D1 : forall c, dollar (c :: text ++ [36%N]) = (true, c :: text)) by (intros c; exact (dollar_add (c :: text) ltac:(discriminate))).
  assert (D2 : dollar (text ++ [36%N]) = (true, text)) by (apply dollar_add; exact H1).
  assert (D3 : forall c, last text 0%N <> 36%N -> dollar (c :: text) = (false, c :: text)).
  { intros c L. apply dollar_none. left. destruct text; [contradiction|exact L]. }
  destruct neg, k; rewrite ?D1, ?D2.
  - cbn. destruct text; [contradiction|reflexivity].
  - destruct H2 as [H2 H3]. rewrite dollar_none, open_none by assumption. destruct text; [contradiction|reflexivity].
  - rewrite D3 by exact H2. cbn. destruct text; [contradiction|reflexivity].
  - rewrite open_none by exact H2. destruct text; [contradiction|reflexivity].
  - cbn. destruct text; [contradiction|reflexivity].
  - destruct H2 as (H2 & H3 & _). rewrite dollar_none by assumption. rewrite open_none by (cbn [In] in *; tauto).
    destruct text; [contradiction|reflexivity].
  - cbn. destruct text; [contradiction|reflexivity].
  - rewrite D3 by exact H2. cbn. destruct text; [contradiction|reflexivity].
  - rewrite open_none by (cbn [In] in *; tauto). destruct text; [contradiction|reflexivity].
  - cbn. destruct text; [contradiction|reflexivity].
Qed.

Lemma write_term_closed t : ~ ends_open t -> last (write_term t) 0%N <> 92%N.
Proof.
  intros H. unfold ends_open in H. unfold write_term. destruct t as [neg k text]; cbn [t_neg t_kind t_text] in *.
  assert (L1 : forall pre, last (pre ++ text ++ [36%N]) 0%N <> 92%N) by (intros pre; rewrite app_assoc, last_last; discriminate).
  assert (L2 : forall pre, last pre 0%N <> 92%N -> last text 0%N <> 92%N -> last (pre ++ text) 0%N <> 92%N).
  { intros pre P T. destruct text as [|c text] using rev_ind; [rewrite app_nil_r; exact P|].
    rewrite last_last in T. rewrite app_assoc, last_last. exact T. }
  destruct neg, k; cbn [app];
    first [apply (L1 [33; 39]%N)|apply (L1 [33; 94]%N)|apply (L1 [33]%N)|apply (L1 [39]%N)|apply (L1 [94]%N)|apply (L1 [])
          |apply (L2 [33; 94]%N); [discriminate|tauto]|apply (L2 [33]%N); [discriminate|tauto]
          |apply (L2 [94]%N); [discriminate|tauto]|apply (L2 []); [discriminate|tauto]].
Qed.

Lemma dollar_cases w : w <> [] -> (dollar w = (false, w) /\ (last w 0%N <> 36%N \/ w = [36%N]))
  \/ exists v, w = v ++ [36%N] /\ v <> [] /\ dollar w = (true, v).
Proof.
  intros Hw. destruct w as [|c [|d w]]; [contradiction| |].
  - left. split; [reflexivity|]. cbn. destruct (N.eq_dec c 36) as [->|]; [right; reflexivity|left; assumption].
  - unfold dollar. destruct (N.eqb_spec (last (c :: d :: w) 0%N) 36) as [E|E]; [|left; split; [reflexivity|left; exact E]].
    right. exists (removelast (c :: d :: w)). split.
    + rewrite (app_removelast_last 0%N (l := c :: d :: w)) at 1 by discriminate. rewrite E. reflexivity.
    + split; [destruct w; discriminate|reflexivity].
Qed.

Lemma open_cases w : (exists r, w = 39%N :: r /\ open_sigil w = (OQuote, r))
  \/ (exists r, w = 94%N :: r /\ open_sigil w = (OCaret, r))
  \/ (open_sigil w = (ONone, w) /\ ~ In (hd 0%N w) [39; 94]%N).
Proof.
  destruct w as [|c w]; [right; right; split; [reflexivity|cbn; intuition discriminate]|]. cbn [open_sigil].
  destruct (N.eqb_spec c 39) as [->|]; [left; eauto|]. destruct (N.eqb_spec c 94) as [->|]; [right; left; eauto|].
  right; right. split; [reflexivity|]. cbn. intros [E|[E|[]]]; congruence.
Qed.

Lemma last_cons_text (c : char) text : text <> [] -> last (c :: text) 0%N = last text 0%N.
Proof. destruct text; [contradiction|reflexivity]. Qed.

(** Every term is writable, and a word for one which ends open ends in a backslash *)
Lemma term_writable w t : is_term w = Some t -> writable t /\ (ends_open t -> last w 0%N = 92%N).
Proof.
  unfold is_term. destruct (is_bar w) eqn:NB; [discriminate|]. unfold term_of. destruct (bang w) as [neg v] eqn:B.
  assert (V : v <> [] -> last w 0%N = last v 0%N /\ (neg = false -> w = v /\ hd 0%N v <> 33%N)).
  { intros Hv. destruct w as [|c w]; cbn [bang] in B; [injection B as <- <-; contradiction|].
    destruct (N.eqb_spec c 33); injection B as <- <-.
    - split; [apply last_cons_text; exact Hv|discriminate].
    - split; [reflexivity|]. intros _. split; [reflexivity|assumption]. }
  destruct v as [|v0 v']; [intros H; discriminate H|]. set (v := v0 :: v') in *. assert (Hv : v <> []) by discriminate.
  clearbody v. clear v0 v'. destruct (V Hv) as [Vl Vn]. clear V B.
  destruct (dollar_cases v Hv) as [(D & DL)|(u & Ev & Hu & D)]; rewrite D;
    [destruct (open_cases v) as [(r & Er & O)|[(r & Er & O)|(O & Hh)]]
    |destruct (open_cases u) as [(r & Er & O)|[(r & Er & O)|(O & Hh)]]]; rewrite O;
    match goal with |- match ?l with _ => _ end = _ -> _ => destruct l as [|x0 x] eqn:Ex; [discriminate|] end; rewrite <- Ex in *;
    match type of Ex with ?l = _ => assert (Hl : l <> []) by (rewrite Ex; discriminate) end; clear Ex x0 x;
    intros E; injection E as <-; unfold writable, ends_open; destruct neg; cbn [kind_of t_neg t_kind t_text];
    repeat match goal with |- context [(_ :: _)%list] => fail 1 | |- _ => idtac end.
  all: rewrite Vl.
  all: try (rewrite Er in DL; rewrite last_cons_text in DL by exact Hl; destruct DL as [DL|DL]; [|injection DL as DL; congruence]).
  all: try (rewrite Er, last_cons_text by exact Hl).
  all: try (split; [split; [assumption|]|tauto]).
  all: try exact I; try tauto.
  all: destruct (Vn eq_refl) as [Vw Vh]; subst w.
  all: try (cbn [In] in *; intuition congruence).
  - split; [cbn [In] in *; intuition congruence|]. split; [exact DL|]. intros ->. discriminate NB.
  - subst v. cbn [In] in *. assert (X : hd 0%N (u ++ [36%N]) = hd 0%N u) by (destruct u; [contradiction|reflexivity]). rewrite X in Vh.
    intuition congruence.
Qed.

(** ** Conditions *)

Definition starts_condition (m : list (bool * term)) : Prop := match m with (true, _) :: _ => False | _ => True end.

Lemma write_condition_cons t u g : write_condition (t :: u :: g) = write_term t :: [124%N] :: write_condition (u :: g).
Proof. reflexivity. Qed.

Lemma marked_condition g : forall t b ws, Forall writable (t :: g) ->
  marked_terms b (write_condition (t :: g) ++ ws) = (b, t) :: map (pair true) g ++ marked_terms false ws.
Proof.
  induction g as [|u g IH]; intros t b ws H; inversion H as [|? ? H1 H2]; subst; pose proof (write_term_ok t H1) as E; unfold is_term in E;
    destruct (is_bar (write_term t)) eqn:Bt; try discriminate.
  - cbn [write_condition app marked_terms]. rewrite Bt, E. reflexivity.
  - rewrite write_condition_cons. cbn [app marked_terms]. rewrite Bt, E. cbn [is_bar]. cbn [map app]. f_equal.
    exact (IH u true ws H2).
Qed.

Lemma join_condition g : forall t b m, starts_condition m ->
  join_bars ((b, t) :: map (pair true) g ++ m) = (t :: g) :: join_bars m.
Proof.
  induction g as [|u g IH]; intros t b m H.
  - cbn [map app join_bars]. destruct m as [|[[] v] m]; [reflexivity|contradiction|reflexivity].
  - cbn [map app]. specialize (IH u true m H). cbn [join_bars] in *. rewrite IH. reflexivity.
Qed.

Lemma written_marked q : Forall (fun g => g <> []) q -> Forall writable (concat q) ->
  starts_condition (marked_terms false (flat_map write_condition q))
  /\ join_bars (marked_terms false (flat_map write_condition q)) = q.
Proof.
  induction q as [|[|t g] q IH]; intros H1 H2; [split; [exact I|reflexivity]|inversion H1; contradiction|].
  apply Forall_inv_tail in H1. cbn [concat] in H2. apply Forall_app in H2 as [H2 H4]. cbn [flat_map].
  rewrite marked_condition by exact H2. destruct (IH H1 H4) as [IH1 IH2].
  split; [exact I|]. rewrite join_condition by exact IH1. f_equal. exact IH2.
Qed.

Lemma write_term_nonempty t : writable t -> write_term t <> [].
Proof. intros H E. pose proof (write_term_ok t H) as X. rewrite E in X. discriminate X. Qed.

Lemma condition_words g : Forall writable g -> Forall (fun w => w <> []) (write_condition g).
Proof.
  induction g as [|t [|u g] IH]; intros H; [constructor| |]; inversion H as [|? ? H1 H2]; subst.
  - constructor; [apply write_term_nonempty; exact H1|constructor].
  - rewrite write_condition_cons. constructor; [apply write_term_nonempty; exact H1|]. constructor; [discriminate|]. apply IH. exact H2.
Qed.

Lemma condition_closed g : Forall (fun t => ~ ends_open t) g -> Forall (fun w => last w 0%N <> 92%N) (write_condition g).
Proof.
  induction g as [|t [|u g] IH]; intros H; [constructor| |]; inversion H as [|? ? H1 H2]; subst.
  - constructor; [apply write_term_closed; exact H1|constructor].
  - rewrite write_condition_cons. constructor; [apply write_term_closed; exact H1|]. constructor; [discriminate|]. apply IH. exact H2.
Qed.

Lemma condition_closed_last g : Forall (fun t => ~ ends_open t) (removelast g) ->
  Forall (fun w => last w 0%N <> 92%N) (removelast (write_condition g)).
Proof.
  induction g as [|t [|u g] IH]; intros H; [constructor|constructor|]. rewrite removelast_cons in H by discriminate.
  inversion H as [|? ? H1 H2]; subst. rewrite write_condition_cons. rewrite !removelast_cons; [| |discriminate].
  - constructor; [apply write_term_closed; exact H1|]. constructor; [discriminate|]. apply IH. exact H2.
  - destruct g; discriminate.
Qed.

Lemma query_closed q : Forall (fun g => g <> []) q -> Forall (fun t => ~ ends_open t) (removelast (concat q)) ->
  Forall (fun w => last w 0%N <> 92%N) (removelast (flat_map write_condition q)).
Proof.
  induction q as [|g q IH]; intros H1 H2; [constructor|]. inversion H1 as [|? ? G1 G2]; subst. cbn [concat flat_map] in *.
  destruct q as [|g' q].
  - cbn [concat flat_map] in *. rewrite app_nil_r in *. apply condition_closed_last. exact H2.
  - assert (N1 : concat (g' :: q) <> []) by (inversion G2; subst; destruct g'; [contradiction|discriminate]).
    assert (N2 : flat_map write_condition (g' :: q) <> []) by (inversion G2; subst; destruct g' as [|? [|? ?]]; [contradiction|discriminate..]).
    rewrite removelast_app in * by assumption. apply Forall_app in H2 as [H2 H3]. apply Forall_app. split.
    + apply condition_closed. exact H2.
    + apply IH; assumption.
Qed.

Lemma written q : Forall (fun g => g <> []) q -> Forall writable (concat q) ->
  Forall (fun t => ~ ends_open t) (removelast (concat q)) -> parse_spec (write_query q) = q.
Proof.
  intros H1 H2 H3. unfold parse_spec, write_query. rewrite words_of_print.
  - apply written_marked; assumption.
  - rewrite Forall_forall. intros w H. apply in_flat_map in H as (g & Hg & Hw).
    assert (W : Forall writable g) by (rewrite Forall_forall in *; intros t Ht; apply H2, in_concat; eauto).
    apply condition_words in W. rewrite Forall_forall in W. apply W. exact Hw.
  - apply query_closed; assumption.
Qed.

Lemma terms_closed ws : Forall (fun w => last w 0%N <> 92%N) (removelast ws) ->
  Forall (fun t => ~ ends_open t) (removelast (terms_of ws)).
Proof.
  induction ws as [|w ws IH]; intros H; [constructor|]. cbn [terms_of]. destruct ws as [|v ws].
  - cbn [terms_of]. destruct (is_term w); constructor.
  - rewrite removelast_cons in H by discriminate. inversion H as [|? ? H1 H2]; subst. specialize (IH H2).
    destruct (is_term w) as [t|] eqn:E; [|exact IH]. destruct (terms_of (v :: ws)) as [|u l] eqn:E2; [constructor|].
    rewrite removelast_cons by discriminate. constructor; [|exact IH]. intros O. apply H1. apply (term_writable w t E). exact O.
Qed.

Section WithUnicode.
Context {UC : unicode}.

Lemma c85_only : forall ps s q ps', parse ps s = Ok (q, ps') ->
  Forall (fun g => g <> []) (read_query q) /\ Forall writable (concat (read_query q))
  /\ Forall (fun t => ~ ends_open t) (removelast (concat (read_query q))).
Proof.
  intros ps s q ps' E. destruct (c28_terms ps s) as (q1 & ps1 & E1 & C & N). rewrite E in E1. injection E1 as <- <-.
  split; [exact N|]. rewrite C. split.
  - rewrite Forall_forall. intros t H. apply terms_of_in in H as (w & _ & H). apply (term_writable w t H).
  - apply terms_closed, words_closed.
Qed.

Lemma c85_write : forall ps q, Forall (fun g => g <> []) q -> Forall writable (concat q) ->
  Forall (fun t => ~ ends_open t) (removelast (concat q)) ->
  exists x ps', parse ps (write_query q) = Ok (x, ps') /\ read_query x = q.
Proof.
  intros ps q H1 H2 H3. destruct (parse_read ps (write_query q)) as (x & ps' & E & R). exists x, ps'. split; [exact E|].
  rewrite R. apply written; assumption.
Qed.

(** ** Characters inserted anywhere into the candidate *)

Lemma part_map c c' : part c c' -> exists f : nat -> nat, (forall i j, i < j -> f i < f j)
  /\ forall i y, nth_error c i = Some y -> nth_error c' (f i) = Some y.
Proof.
  induction 1 as [|x c c' P (f & F1 & F2)|x c c' P (f & F1 & F2)].
  - exists (fun i => i). split; [auto|]. intros [|i] y; discriminate.
  - exists (fun i => match i with 0 => 0 | S i => S (f i) end). split.
    + intros [|i] [|j] H; try lia. assert (i < j) by lia. specialize (F1 i j). lia.
    + intros [|i] y H; [exact H|]. apply F2. exact H.
  - exists (fun i => S (f i)). split.
    + intros i j H. specialize (F1 i j H). lia.
    + intros i y H. apply F2. exact H.
Qed.

Lemma fuzzy_part R p c c' : part c c' -> fuzzy_in R p c -> fuzzy_in R p c'.
Proof.
  intros P (qs & S & F). destruct (part_map c c' P) as (f & F1 & F2). exists (map f qs). split.
  - clear F. induction S as [|q qs S IH H]; cbn [map]; constructor; [exact IH|]. apply Forall_map. eapply Forall_impl; [|exact H]. exact (F1 q).
  - clear S. induction F as [|x j xs js (y & E & HR) F IH]; cbn [map]; constructor; [|exact IH]. exists y. split; [apply F2; exact E|exact HR].
Qed.

Lemma c50_insert : forall a o m ps s c c', metric_reached a o m ->
  Forall (Forall (fun t => t_neg t = false /\ t_kind t = KFuzzy)) (parse_spec s) -> part c c' ->
  accepts (find ps m s c) -> accepts (find ps m s c').
Proof.
  intros a o m ps s c c' Hm H P.
  assert (R : regular (parse_spec s)).
  { split.
    - apply positive_lone. unfold positive. eapply Forall_impl; [|exact H]. intros g. apply Forall_impl. tauto.
    - eapply Forall_impl; [|exact H]. intros g. apply Forall_impl. intros t [_ K] [K' _]; congruence. }
  rewrite !(c27_accepts a o m ps s _ Hm R). unfold cnf_accepts. rewrite !Forall_forall in *. intros A g Hg.
  specialize (A g Hg). specialize (H g Hg). rewrite Forall_forall in H. apply Exists_exists in A as (t & Ht & A).
  apply Exists_exists. exists t. split; [exact Ht|]. specialize (H t Ht) as [N K]. unfold term_accepts in *. rewrite N, K in *.
  unfold text_matches in *. eapply fuzzy_part; eassumption.
Qed.

Lemma c50_remove : forall a o m ps s c c', metric_reached a o m ->
  Forall (Forall (fun t => t_neg t = true /\ t_kind t = KFuzzy)) (parse_spec s) -> ~ lone_negated_fuzzy (parse_spec s) ->
  part c c' -> accepts (find ps m s c') -> accepts (find ps m s c).
Proof.
  intros a o m ps s c c' Hm H L P.
  assert (R : regular (parse_spec s)).
  { split; [exact L|]. eapply Forall_impl; [|exact H]. intros g. apply Forall_impl. intros t [_ K] [K' _]; congruence. }
  rewrite !(c27_accepts a o m ps s _ Hm R). unfold cnf_accepts. rewrite !Forall_forall in *. intros A g Hg.
  specialize (A g Hg). specialize (H g Hg). rewrite Forall_forall in H. apply Exists_exists in A as (t & Ht & A).
  apply Exists_exists. exists t. split; [exact Ht|]. specialize (H t Ht) as [N K]. unfold term_accepts in *. rewrite N, K in *.
  unfold text_matches in *. intros F. apply A. eapply fuzzy_part; eassumption.
Qed.

Lemma c50_insert_raw : forall a o m ps s c c', metric_reached a o m -> part c c' ->
  accepts (find_raw ps m s c) -> accepts (find_raw ps m s c').
Proof.
  intros a o m ps s c c' Hm P [d A]. apply metric_reached_options in Hm. rewrite (find_raw_spec a o) in * by exact Hm.
  destruct (length s <=? length (ps_chars ps)); [|discriminate].
  assert (F : fuzzy_in (agreement o s) s c).
  { unfold agreement. apply (raw_outcome_iff o a). destruct (fst (raw_outcome a o s c)); [eauto|discriminate]. }
  apply (fuzzy_part _ _ _ _ P) in F. unfold agreement in F. apply (raw_outcome_iff o a) in F as [x ->]. eexists. reflexivity.
Qed.

End WithUnicode.
