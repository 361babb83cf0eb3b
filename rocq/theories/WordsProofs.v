(** Facts about the query language of the specification. *)
From Verif Require Import Prelude Chars Spec PreludeProofs.
Local Open Scope nat_scope.

Lemma escape_cons c w : escape (c :: w) = (if (c =? 32)%N then [92; 32]%N else [c]) ++ escape w.
Proof. reflexivity. Qed.

(** The first character of an escaped word is not a space. *)
Lemma escape_head w rest : w <> [] -> exists c r, escape w ++ rest = c :: r /\ c <> 32%N.
Proof.
  destruct w as [|c w]; [congruence|]. intros _. rewrite escape_cons.
  destruct (N.eqb_spec c 32).
  - exists 92%N. eexists. split; [reflexivity|discriminate].
  - exists c. eexists. split; [reflexivity|assumption].
Qed.

Lemma tokens_lit c rest : c <> 32%N -> (forall d r, rest = d :: r -> c = 92%N -> d <> 32%N) ->
  tokens (c :: rest) = Lit c :: tokens rest.
Proof.
  intros Hc Hr. cbn [tokens]. destruct (N.eqb_spec c 32) as [|_]; [congruence|].
  destruct rest as [|d r]; [reflexivity|].
  destruct (N.eqb_spec c 92); [|reflexivity]. destruct (N.eqb_spec d 32); [|reflexivity].
  exfalso. eapply Hr; eauto.
Qed.

Lemma tokens_escape w : forall rest, (w = [] \/ last w 0%N <> 92%N \/ rest = []) ->
  tokens (escape w ++ rest) = map Lit w ++ tokens rest.
Proof.
  induction w as [|c w IH]; intros rest H; [reflexivity|].
  rewrite escape_cons.
  assert (H' : w = [] \/ last w 0%N <> 92%N \/ rest = []).
  { destruct w as [|d w]; [auto|]. destruct H as [H|[H|H]]; [discriminate| |auto]. right. left. exact H. }
  destruct (N.eqb_spec c 32) as [->|Hc].
  - cbn [app]. cbn [map app]. rewrite <- IH by exact H'. reflexivity.
  - cbn [app map]. rewrite <- IH by exact H'. apply tokens_lit; [exact Hc|].
    intros d r E ->. destruct w as [|e w].
    + cbn in E. destruct H as [H|[H|H]]; [discriminate|cbn in H; congruence|subst; discriminate].
    + destruct (escape_head (e :: w) rest) as (c' & r' & E' & Hc'); [discriminate|].
      assert (d = c') by congruence. subst. exact Hc'.
Qed.

Lemma split_lits_sep w l : split (map Lit w ++ Sep :: l) = w :: split l.
Proof.
  induction w as [|c w IH]; [reflexivity|]. cbn [map app split]. rewrite IH. reflexivity.
Qed.

Lemma split_lits_end w : split (map Lit w) = [w].
Proof. induction w as [|c w IH]; [reflexivity|]. cbn [map split]. rewrite IH. reflexivity. Qed.

Lemma words_of_escape w : w <> [] -> words_of (escape w) = [w].
Proof.
  intros Hw. unfold words_of. rewrite <- (app_nil_r (escape w)), tokens_escape by auto.
  cbn [tokens]. rewrite app_nil_r, split_lits_end. destruct w; [congruence|reflexivity].
Qed.

Lemma words_of_sep w rest : w <> [] -> last w 0%N <> 92%N ->
  words_of (escape w ++ 32%N :: rest) = w :: words_of rest.
Proof.
  intros Hw Hl. unfold words_of. rewrite tokens_escape by auto.
  change (tokens (32%N :: rest)) with (Sep :: tokens rest). rewrite split_lits_sep.
  destruct w; [congruence|reflexivity].
Qed.

Lemma words_of_print ws :
  Forall (fun w => w <> []) ws -> Forall (fun w => last w 0%N <> 92%N) (removelast ws) ->
  words_of (print_words ws) = ws.
Proof.
  induction ws as [|w ws IH]; intros H1 H2; [reflexivity|].
  inversion H1; subst. destruct ws as [|w' ws].
  - apply words_of_escape. assumption.
  - change (print_words (w :: w' :: ws)) with (escape w ++ 32%N :: print_words (w' :: ws)).
    change (removelast (w :: w' :: ws)) with (w :: removelast (w' :: ws)) in H2. inversion H2; subst.
    rewrite words_of_sep by assumption. f_equal. apply IH; assumption.
Qed.

(** Extra spaces do not matter. *)
Lemma words_of_space s : words_of (32%N :: s) = words_of s.
Proof. reflexivity. Qed.

(** ** Terms *)

Lemma marked_terms_of ws : forall b, map snd (marked_terms b ws) = terms_of ws.
Proof.
  induction ws as [|w ws IH]; intros b; [reflexivity|]. cbn [marked_terms terms_of]. unfold is_term.
  destruct (is_bar w); [apply IH|]. destruct (term_of w); [|apply IH]. cbn [map snd]. f_equal. apply IH.
Qed.

Lemma join_bars_concat m : concat (join_bars m) = map snd m.
Proof.
  induction m as [|[b t] m IH]; [reflexivity|]. cbn [join_bars map snd].
  destruct m as [|[[] u] m]; [reflexivity| |].
  - destruct (join_bars ((true, u) :: m)) as [|g gs]; [discriminate IH|].
    change (t :: concat (g :: gs) = t :: map snd ((true, u) :: m)). f_equal. exact IH.
  - change (t :: concat (join_bars ((false, u) :: m)) = t :: map snd ((false, u) :: m)). f_equal. exact IH.
Qed.

(** The terms of the conditions are those of the words, in order. *)
Lemma parse_spec_terms s : concat (parse_spec s) = terms_of (words_of s).
Proof. unfold parse_spec. rewrite join_bars_concat. apply marked_terms_of. Qed.

Lemma terms_of_in ws t : In t (terms_of ws) <-> exists w, In w ws /\ is_term w = Some t.
Proof.
  induction ws as [|w ws IH]; cbn [terms_of].
  - split; [intros []|intros (w & [] & _)].
  - destruct (is_term w) as [u|] eqn:E.
    + cbn [In]. rewrite IH. split.
      * intros [<-|(w' & H1 & H2)]; [exists w|exists w']; auto.
      * intros (w' & [<-|H1] & H2); [left; congruence|right; eauto].
    + rewrite IH. split; intros (w' & H1 & H2); [exists w'; simpl; auto|].
      destruct H1 as [<-|H1]; [congruence|eauto].
Qed.

Lemma words_of_nonempty s : Forall (fun w => w <> []) (words_of s).
Proof.
  apply Forall_forall. intros w H. apply filter_In in H as [_ H]. destruct w; [discriminate|discriminate].
Qed.

Lemma parse_spec_alone w t : w <> [] -> is_term w = Some t -> parse_spec (escape w) = [[t]].
Proof.
  intros Hw H. unfold parse_spec. rewrite words_of_escape by exact Hw. cbn [marked_terms].
  unfold is_term in H. destruct (is_bar w); [discriminate|]. rewrite H. reflexivity.
Qed.

(** Every term of a query can be written alone. *)
Lemma term_alone s g t : In g (parse_spec s) -> In t g ->
  exists w, In w (words_of s) /\ parse_spec (escape w) = [[t]].
Proof.
  intros Hg Ht. assert (H : In t (concat (parse_spec s))) by (apply in_concat; eauto).
  rewrite parse_spec_terms in H. apply terms_of_in in H as (w & Hw & E). exists w. split; [exact Hw|].
  apply parse_spec_alone; [|exact E]. pose proof (words_of_nonempty s) as F. rewrite Forall_forall in F. auto.
Qed.

(** ** Grouping *)

(** Words without text between two terms. *)
Lemma marked_skip mid ws : forall b, Forall (fun w => is_term w = None) mid ->
  marked_terms b (mid ++ ws) = marked_terms (b || existsb is_bar mid) ws.
Proof.
  induction mid as [|w mid IH]; intros b H; cbn [app marked_terms existsb].
  - rewrite orb_false_r. reflexivity.
  - inversion H as [|? ? Hw Hm]; subst. unfold is_term in Hw. destruct (is_bar w) eqn:E.
    + rewrite IH by exact Hm. cbn [orb]. f_equal. destruct b; reflexivity.
    + rewrite Hw, IH by exact Hm. reflexivity.
Qed.

Lemma marked_app ws1 t w1 : is_term w1 = Some t -> forall b ws2,
  exists m, marked_terms b (ws1 ++ w1 :: ws2) = m ++ marked_terms false ws2
            /\ exists m' b', m = m' ++ [(b', t)] /\ map snd m' = terms_of ws1.
Proof.
  intros H. unfold is_term in H. destruct (is_bar w1) eqn:Eb; [discriminate|].
  induction ws1 as [|w ws1 IH]; intros b ws2.
  - cbn [app marked_terms]. rewrite Eb, H. exists [(b, t)]. split; [reflexivity|]. exists [], b. auto.
  - cbn [app marked_terms terms_of]. unfold is_term. destruct (is_bar w) eqn:E.
    + apply IH.
    + destruct (term_of w) as [u|].
      * destruct (IH false ws2) as (m & -> & m' & b' & -> & Hm). exists ((b, u) :: m' ++ [(b', t)]).
        split; [reflexivity|]. exists ((b, u) :: m'), b'. split; [reflexivity|]. cbn. f_equal. exact Hm.
      * apply IH.
Qed.

Lemma join_bars_step m b t b' u m2 :
  exists q1 g1 g2 q2,
    concat q1 ++ g1 = map snd m
    /\ join_bars (m ++ (b, t) :: (b', u) :: m2)
       = q1 ++ (if b' then (g1 ++ t :: u :: g2) :: q2 else (g1 ++ [t]) :: (u :: g2) :: q2).
Proof.
  induction m as [|[c v] m IH].
  - exists [], []. cbn [app].
    assert (G : exists g2 q2, join_bars ((b', u) :: m2) = (u :: g2) :: q2).
    { cbn [join_bars]. destruct m2 as [|[[] w] m2]; [eexists _, _; reflexivity| |eexists _, _; reflexivity].
      destruct (join_bars ((true, w) :: m2)); eexists _, _; reflexivity. }
    destruct G as (g2 & q2 & G). exists g2, q2. split; [reflexivity|].
    change (join_bars ((b, t) :: (b', u) :: m2)) with
      (if b' then match join_bars ((b', u) :: m2) with g :: gs => (t :: g) :: gs | [] => [[t]] end
       else [t] :: join_bars ((b', u) :: m2)).
    rewrite G. destruct b'; reflexivity.
  - destruct IH as (q1 & g1 & g2 & q2 & H1 & H2).
    set (rest := m ++ (b, t) :: (b', u) :: m2) in *.
    assert (E : rest <> []) by (unfold rest; destruct m; discriminate).
    assert (Hnext : join_bars ((c, v) :: rest)
       = match rest with
         | (true, _) :: _ => match join_bars rest with g :: gs => (v :: g) :: gs | [] => [[v]] end
         | _ => [v] :: join_bars rest
         end) by reflexivity.
    cbn [app map snd]. fold rest. rewrite Hnext. destruct rest as [|[[] w] rest']; [congruence| |].
    + rewrite H2. destruct q1 as [|g q1].
      * cbn [app]. cbn in H1. subst g1. exists [], (v :: map snd m), g2, q2. split; [reflexivity|].
        destruct b'; reflexivity.
      * cbn [app]. exists ((v :: g) :: q1), g1, g2, q2. split; [|reflexivity].
        cbn in *. rewrite <- H1. reflexivity.
    + rewrite H2. exists ([v] :: q1), g1, g2, q2. split; [|reflexivity].
      cbn in *. rewrite <- H1. reflexivity.
Qed.

Lemma grouping s ws1 w1 mid w2 ws2 t u :
  words_of s = ws1 ++ w1 :: mid ++ w2 :: ws2 ->
  is_term w1 = Some t -> is_term w2 = Some u -> Forall (fun w => is_term w = None) mid ->
  exists q1 g1 g2 q2,
    concat q1 ++ g1 = terms_of ws1
    /\ parse_spec s
       = q1 ++ (if existsb is_bar mid then (g1 ++ t :: u :: g2) :: q2 else (g1 ++ [t]) :: (u :: g2) :: q2).
Proof.
  intros Hs Ht Hu Hm. unfold parse_spec. rewrite Hs.
  destruct (marked_app ws1 t w1 Ht false (mid ++ w2 :: ws2)) as (m & -> & m' & b & -> & Hm').
  rewrite marked_skip by exact Hm. cbn [orb]. unfold is_term in Hu.
  cbn [marked_terms]. destruct (is_bar w2); [discriminate|]. rewrite Hu. rewrite <- app_assoc. cbn [app].
  rewrite <- Hm'. apply join_bars_step.
Qed.

(** ** Sigils *)

Lemma plain_hd c t : plain (c :: t) -> c <> 33%N /\ c <> 39%N /\ c <> 94%N.
Proof. intros (_ & H & _). cbn in H. repeat split; intros E; apply H; auto. Qed.

Lemma bang_plain t : plain t -> bang t = (false, t).
Proof.
  destruct t as [|c t]; [reflexivity|]. intros H. apply plain_hd in H as (H & _ & _). cbn.
  destruct (N.eqb_spec c 33); [congruence|reflexivity].
Qed.

Lemma open_plain t : plain t -> open_sigil t = (ONone, t).
Proof.
  destruct t as [|c t]; [reflexivity|]. intros H. apply plain_hd in H as (_ & H1 & H2). cbn.
  destruct (N.eqb_spec c 39); [congruence|]. destruct (N.eqb_spec c 94); [congruence|reflexivity].
Qed.

Lemma dollar_plain t : plain t -> dollar t = (false, t).
Proof.
  intros (_ & _ & H). unfold dollar. destruct t as [|c [|d t]]; try reflexivity.
  destruct (N.eqb_spec (last (c :: d :: t) 0%N) 36); [congruence|reflexivity].
Qed.

Lemma dollar_plain_cons x t : plain t -> dollar (x :: t) = (false, x :: t).
Proof.
  intros (H1 & _ & H). unfold dollar. destruct t as [|c t]; [congruence|].
  change (last (x :: c :: t) 0%N) with (last (c :: t) 0%N).
  destruct (N.eqb_spec (last (c :: t) 0%N) 36); [congruence|reflexivity].
Qed.

Lemma dollar_snoc t : t <> [] -> dollar (t ++ [36%N]) = (true, t).
Proof.
  intros H. unfold dollar. destruct t as [|c t]; [congruence|].
  destruct (t ++ [36%N]) as [|d r] eqn:E; [destruct t; discriminate|].
  cbn [app]. rewrite E, <- E. change (c :: t ++ [36%N]) with ((c :: t) ++ [36%N]).
  rewrite last_last, removelast_last. reflexivity.
Qed.

Lemma sigil_table t : plain t ->
  term_of t = Some (Term false KFuzzy t)
  /\ term_of (39%N :: t) = Some (Term false KExact t)
  /\ term_of (94%N :: t) = Some (Term false KPrefix t)
  /\ term_of (t ++ [36%N]) = Some (Term false KSuffix t)
  /\ term_of (94%N :: t ++ [36%N]) = Some (Term false KEqual t)
  /\ term_of (33%N :: t) = Some (Term true KExact t)
  /\ term_of (33%N :: 39%N :: t) = Some (Term true KFuzzy t)
  /\ term_of (33%N :: 94%N :: t) = Some (Term true KPrefix t)
  /\ term_of (33%N :: t ++ [36%N]) = Some (Term true KSuffix t)
  /\ term_of (33%N :: 94%N :: t ++ [36%N]) = Some (Term true KEqual t).
Proof.
  intros H. assert (Hne : t <> []) by apply H.
  assert (B : bang (t ++ [36%N]) = (false, t ++ [36%N])).
  { destruct t as [|c t]; [congruence|]. apply plain_hd in H as (H & _ & _). cbn.
    destruct (N.eqb_spec c 33); [congruence|reflexivity]. }
  assert (G : forall neg k, match t with [] => None | _ :: _ => Some (Term neg k t) end = Some (Term neg k t)).
  { destruct t; [congruence|reflexivity]. }
  assert (Bq : forall x r, bang (33%N :: x :: r) = (true, x :: r)) by reflexivity.
  assert (Ob : forall r, open_sigil (39%N :: r) = (OQuote, r)) by reflexivity.
  assert (Oc : forall r, open_sigil (94%N :: r) = (OCaret, r)) by reflexivity.
  repeat split; unfold term_of.
  - rewrite bang_plain, dollar_plain, open_plain by exact H. apply G.
  - change (bang (39%N :: t)) with (false, 39%N :: t). cbv iota. rewrite dollar_plain_cons, Ob by exact H. apply G.
  - change (bang (94%N :: t)) with (false, 94%N :: t). cbv iota. rewrite dollar_plain_cons, Oc by exact H. apply G.
  - rewrite B, dollar_snoc, open_plain by assumption. apply G.
  - change (bang (94%N :: t ++ [36%N])) with (false, 94%N :: t ++ [36%N]). cbv iota.
    change (94%N :: t ++ [36%N]) with ((94%N :: t) ++ [36%N]). rewrite dollar_snoc by discriminate. rewrite Oc. apply G.
  - change (bang (33%N :: t)) with (true, t). cbv iota. rewrite dollar_plain, open_plain by exact H. apply G.
  - rewrite Bq, dollar_plain_cons, Ob by exact H. apply G.
  - rewrite Bq, dollar_plain_cons, Oc by exact H. apply G.
  - change (bang (33%N :: t ++ [36%N])) with (true, t ++ [36%N]). cbv iota. rewrite dollar_snoc, open_plain by assumption. apply G.
  - rewrite Bq. change (94%N :: t ++ [36%N]) with ((94%N :: t) ++ [36%N]).
    rewrite dollar_snoc by discriminate. rewrite Oc. apply G.
Qed.
