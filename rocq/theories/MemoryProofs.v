(** The parser with memory (Memory.v) does what the parser without (Parser.v) does. *)
From Verif Require Import Prelude Chars Utils Candidate Query Parser Memory Spec PreludeProofs ParserProofs.
Local Open Scope nat_scope.

(** ** Heaps *)
Definition alive {A} (h : heap A) (a : nat) (l : list A) : Prop := nth_error h a = Some (Some l).

Lemma alive_lt A (h : heap A) a l : alive h a l -> a < length h.
Proof. intros H. apply nth_error_Some. unfold alive in H. congruence. Qed.

Lemma upd_upd A (l : list A) i x y : upd (upd l i x) i y = upd l i y.
Proof. revert i. induction l as [|z l IH]; intros [|i]; cbn [upd]; auto. f_equal. apply IH. Qed.

Lemma upd_same A (l : list A) i x : nth_error l i = Some x -> upd l i x = l.
Proof.
  revert i. induction l as [|z l IH]; intros [|i] H; cbn in *; try discriminate; [congruence|].
  f_equal. apply IH. exact H.
Qed.

Lemma alive_upd A (h : heap A) a l : a < length h -> alive (upd h a (Some l)) a l.
Proof. intros H. unfold alive. rewrite nth_error_upd, Nat.eqb_refl. apply Nat.ltb_lt in H. rewrite H. reflexivity. Qed.

Lemma alive_upd_other A (h : heap A) a b v l : a <> b -> alive h b l -> alive (upd h a v) b l.
Proof. intros H K. unfold alive. rewrite nth_error_upd. destruct (Nat.eqb_spec b a); [congruence|]. exact K. Qed.

Lemma alive_app A (h h' : heap A) a l : alive h a l -> alive (h ++ h') a l.
Proof. intros H. unfold alive. rewrite nth_error_app1; [exact H|]. eapply alive_lt; exact H. Qed.

Lemma alive_last A (h : heap A) l : alive (h ++ [Some l]) (length h) l.
Proof. unfold alive. rewrite nth_error_app2, Nat.sub_diag by lia. reflexivity. Qed.

Lemma buffer_alive A (h : heap A) a l : alive h a l -> buffer h a = Ok l.
Proof. unfold alive, buffer. intros ->. reflexivity. Qed.

Lemma write_eq A (h : heap A) a l i x : alive h a l ->
  write h a i x = let* l' := set_idx l i x in Ok (upd h a (Some l')).
Proof. intros H. unfold write. rewrite (buffer_alive _ _ _ _ H). reflexivity. Qed.

(** ** Words *)
Lemma words_alloc_m_eq s : forall h a l n, alive h a l ->
  words_alloc_m h a n s = let* '(l', n') := words_alloc l n s in Ok (upd h a (Some l'), n').
Proof.
  induction s as [|c s IH]; intros h a l n H; cbn [words_alloc_m words_alloc bind].
  - rewrite (upd_same _ _ _ _ H). reflexivity.
  - rewrite (write_eq _ _ _ _ _ _ H). destruct (set_idx l n c) as [l'| |]; cbn [bind]; [|reflexivity|reflexivity].
    rewrite (IH _ a l' (n + 1)) by (apply alive_upd; eapply alive_lt; exact H).
    destruct (words_alloc l' (n + 1) s) as [[l2 n2]| |]; cbn [bind]; [|reflexivity|reflexivity].
    rewrite upd_upd. reflexivity.
Qed.

Lemma words_next_loop_m_eq fuel : forall h a l n s e, alive h a l ->
  words_next_loop_m fuel h a n s e
  = let* '(l', n', e') := words_next_loop fuel l n s e in Ok (upd h a (Some l'), n', e').
Proof.
  induction fuel as [|fuel IH]; intros h a l n s e H; [reflexivity|]. cbn [words_next_loop_m words_next_loop].
  pose proof (alive_lt _ _ _ _ H) as Ha.
  destruct (memchr SPACE s) as [[|k]|].
  - cbn [bind]. rewrite (upd_same _ _ _ _ H). reflexivity.
  - destruct (idx s k) as [x| |]; cbn [bind]; [|reflexivity|reflexivity]. destruct (x =? BACKSLASH)%N.
    + destruct (str_to s k) as [u| |]; cbn [bind]; [|reflexivity|reflexivity].
      rewrite (words_alloc_m_eq _ _ _ _ _ H). destruct (words_alloc l n (decode u)) as [[l1 n1]| |]; cbn [bind]; [|reflexivity|reflexivity].
      rewrite (words_alloc_m_eq _ _ _ l1) by (apply alive_upd; exact Ha).
      destruct (words_alloc l1 n1 [SPACE]) as [[l2 n2]| |]; cbn [bind]; [|reflexivity|reflexivity].
      destruct (str_from s (S k + 1)) as [s'| |]; cbn [bind]; [|reflexivity|reflexivity].
      rewrite upd_upd. rewrite (IH _ a l2) by (apply alive_upd; exact Ha).
      destruct (words_next_loop fuel l2 n2 s' _) as [[[l3 n3] e3]| |]; cbn [bind]; [|reflexivity|reflexivity].
      rewrite upd_upd. reflexivity.
    + destruct (str_to s (S k)) as [u| |]; cbn [bind]; [|reflexivity|reflexivity].
      rewrite (words_alloc_m_eq _ _ _ _ _ H). destruct (words_alloc l n (decode u)) as [[l1 n1]| |]; reflexivity.
  - rewrite (words_alloc_m_eq _ _ _ _ _ H). destruct (words_alloc l n (decode s)) as [[l1 n1]| |]; reflexivity.
Qed.

Lemma words_alloc_keeps s : forall l n l' n', words_alloc l n s = Ok (l', n') ->
  firstn n l' = firstn n l /\ n <= n' /\ length l' = length l /\ (n <= length l -> n' <= length l').
Proof.
  induction s as [|c s IH]; intros l n l' n' E; cbn [words_alloc] in E.
  - injection E as <- <-. auto.
  - apply bind_ok in E as (l1 & E1 & E). apply IH in E as (F & L & G & B).
    unfold set_idx in E1. destruct (Nat.ltb_spec n (length l)) as [Hn|]; [|discriminate]. injection E1 as <-.
    rewrite length_upd in *. split; [|split; [lia|split; [exact G|intros; apply B; lia]]].
    assert (F' : firstn n (firstn (n + 1) l') = firstn n (firstn (n + 1) (upd l n c))) by congruence.
    rewrite !firstn_firstn in F'. replace (Nat.min n (n + 1)) with n in F' by lia. rewrite F'.
    rewrite upd_firstn_skipn by exact Hn. rewrite firstn_app, firstn_firstn, firstn_length.
    replace (n - Nat.min n (length l)) with 0 by lia. rewrite firstn_O, app_nil_r, Nat.min_id. reflexivity.
Qed.

(** [kept n l l']: the first [n] elements are the same *)
Definition kept {A} (n : nat) (l l' : list A) : Prop := firstn n l' = firstn n l /\ length l' = length l.

Lemma kept_refl A n (l : list A) : kept n l l.
Proof. split; reflexivity. Qed.

Lemma kept_le A n m (l l' : list A) : n <= m -> kept m l l' -> kept n l l'.
Proof.
  intros H [F L]. split; [|exact L]. assert (F' : firstn n (firstn m l') = firstn n (firstn m l)) by congruence.
  rewrite !firstn_firstn in F'. replace (Nat.min n m) with n in F' by lia. exact F'.
Qed.

Lemma kept_trans A n (l1 l2 l3 : list A) : kept n l1 l2 -> kept n l2 l3 -> kept n l1 l3.
Proof. intros [F L] [F' L']. split; congruence. Qed.

Lemma words_next_loop_keeps fuel : forall l n s e l' n' e', words_next_loop fuel l n s e = Ok (l', n', e') ->
  kept n l l' /\ n <= n' /\ (n <= length l -> n' <= length l').
Proof.
  induction fuel as [|fuel IH]; intros l n s e l' n' e' E; [discriminate|]. cbn [words_next_loop] in E.
  destruct (memchr SPACE s) as [[|k]|].
  - injection E as <- <- <-. split; [apply kept_refl|auto].
  - apply bind_ok in E as (x & _ & E). destruct (x =? BACKSLASH)%N.
    + apply bind_ok in E as (u & _ & E). apply bind_ok in E as ([l1 n1] & E1 & E). apply bind_ok in E as ([l2 n2] & E2 & E).
      apply bind_ok in E as (s' & _ & E). apply IH in E as (K & L & B).
      apply words_alloc_keeps in E1 as (F1 & L1 & G1 & B1). apply words_alloc_keeps in E2 as (F2 & L2 & G2 & B2).
      split; [|split; [lia|intros; apply B; specialize (B1 H); lia]].
      apply (kept_trans _ _ _ l1); [split; assumption|]. apply (kept_trans _ _ _ l2).
      * apply (kept_le _ n n1); [lia|split; assumption].
      * apply (kept_le _ n n2); [lia|exact K].
    + apply bind_ok in E as (u & _ & E). apply bind_ok in E as ([l1 n1] & E1 & E). injection E as <- <- _.
      apply words_alloc_keeps in E1 as (F1 & L1 & G1 & B1). split; [split; assumption|auto].
  - apply bind_ok in E as ([l1 n1] & E1 & E). injection E as <- <- _.
    apply words_alloc_keeps in E1 as (F1 & L1 & G1 & B1). split; [split; assumption|auto].
Qed.

Lemma words_next_keeps w o w' : words_next w = Ok (o, w') -> w_allocated w <= length (w_buf w) ->
  kept (w_allocated w) (w_buf w) (w_buf w') /\ w_allocated w <= w_allocated w' /\ w_allocated w' <= length (w_buf w')
  /\ (forall t, o = Some t -> slice (w_buf w') (w_allocated w) (w_allocated w') = Ok t).
Proof.
  unfold words_next. intros E Hl. destruct (w_s w) as [|b s] eqn:Es.
  - injection E as <- <-. split; [apply kept_refl|]. split; [auto|]. split; [exact Hl|discriminate].
  - apply bind_ok in E as ([[l n] e] & E1 & E). apply bind_ok in E as (r & _ & E). apply bind_ok in E as (s' & _ & E).
    apply bind_ok in E as (t & Et & E). injection E as <- <-. apply words_next_loop_keeps in E1 as (K & L & B).
    cbn [w_buf w_allocated]. split; [exact K|]. split; [exact L|]. split; [apply B; exact Hl|]. intros t' [= <-]. exact Et.
Qed.

(** The words of the two models *)
Definition wsim (h : heap char) (wm : words_m) (w : words) : Prop :=
  alive h (wm_buf wm) (w_buf w) /\ wm_allocated wm = w_allocated w /\ wm_s wm = w_s w /\ w_allocated w <= length (w_buf w).

Lemma words_next_m_ok h wm w o w' : wsim h wm w -> words_next w = Ok (o, w') ->
  exists wm', words_next_m h wm
    = Ok (option_map (fun _ => MkRef (wm_buf wm) (w_allocated w) (w_allocated w' - w_allocated w)) o,
          upd h (wm_buf wm) (Some (w_buf w')), wm')
    /\ wm_buf wm' = wm_buf wm /\ wsim (upd h (wm_buf wm) (Some (w_buf w'))) wm' w'.
Proof.
  intros (Ha & Hn & Hs & Hl) E. pose proof (words_next_keeps _ _ _ E Hl) as (_ & _ & Hl' & _).
  unfold words_next in E. unfold words_next_m. rewrite Hs, Hn.
  pose proof (alive_lt _ _ _ _ Ha) as Hlt.
  destruct (w_s w) as [|b s] eqn:Es.
  - injection E as <- <-. exists wm. cbn [option_map]. rewrite (upd_same _ _ _ _ Ha). repeat split; auto. congruence.
  - rewrite (words_next_loop_m_eq _ _ _ _ _ _ _ Ha).
    apply bind_ok in E as ([[l n] e] & E1 & E). rewrite E1. cbn [bind].
    apply bind_ok in E as (r & E2 & E). rewrite E2. cbn [bind]. apply bind_ok in E as (s' & E3 & E). rewrite E3. cbn [bind].
    apply bind_ok in E as (t & E4 & E). injection E as <- <-. cbn [w_buf w_allocated w_s option_map] in *.
    unfold borrow. rewrite (buffer_alive _ _ _ l) by (apply alive_upd; exact Hlt). cbn [bind]. rewrite E4. cbn [bind].
    eexists. split; [reflexivity|]. cbn [wm_buf]. split; [reflexivity|].
    split; [apply alive_upd; exact Hlt|]. cbn [wm_allocated wm_s w_allocated w_s w_buf]. auto.
Qed.

(** ** References *)

(** [points l a n r t]: [r] points to [t] among the first [n] elements of the buffer [l] at [a] *)
Definition points {A} (l : list A) (a n : nat) (r : sref) (t : list A) : Prop :=
  r_addr r = a /\ r_start r + r_len r <= n /\ n <= length l /\ firstn (r_len r) (skipn (r_start r) l) = t.

Lemma points_deref A (h : heap A) l a n r t : alive h a l -> points l a n r t -> deref h r = Ok t.
Proof.
  intros Ha (E1 & E2 & E3 & E4). unfold deref. destruct (Nat.eqb_spec (r_len r) 0) as [E|E].
  - rewrite E in E4. cbn in E4. congruence.
  - rewrite E1. unfold alive in Ha. rewrite Ha. rewrite slice_ok by lia.
    replace (r_start r + r_len r - r_start r) with (r_len r) by lia. congruence.
Qed.

Lemma points_length A (l : list A) a n r t : points l a n r t -> length t = r_len r.
Proof. intros (_ & E2 & E3 & <-). rewrite firstn_length, skipn_length. lia. Qed.

Lemma firstn_skipn_kept A n (l l' : list A) s k : kept n l l' -> s + k <= n ->
  firstn k (skipn s l') = firstn k (skipn s l).
Proof.
  intros [F L] H. assert (G : forall x : list A, firstn k (skipn s x) = firstn k (skipn s (firstn n x))).
  { intros x. rewrite skipn_firstn_comm, firstn_firstn. f_equal. lia. }
  rewrite (G l'), (G l), F. reflexivity.
Qed.

Lemma points_kept A (l l' : list A) a n n' r t : kept n l l' -> n <= n' -> n' <= length l' ->
  points l a n r t -> points l' a n' r t.
Proof.
  intros K H1 H2 (E1 & E2 & E3 & E4). split; [exact E1|]. split; [lia|]. split; [exact H2|].
  rewrite (firstn_skipn_kept _ n l l') by assumption. exact E4.
Qed.

Lemma points_from A (l : list A) a n r t k : points l a n r t -> k <= r_len r ->
  exists r', ref_from r k = Ok r' /\ points l a n r' (skipn k t) /\ r_len r' = r_len r - k.
Proof.
  intros (E1 & E2 & E3 & E4) H. unfold ref_from. rewrite (proj2 (Nat.leb_le _ _) H). eexists. split; [reflexivity|].
  cbn [r_len]. split; [|reflexivity]. split; [exact E1|]. cbn [r_start r_len]. split; [lia|]. split; [exact E3|].
  rewrite <- E4. rewrite skipn_firstn_comm, skipn_skipn. reflexivity.
Qed.

Lemma points_to A (l : list A) a n r t k : points l a n r t -> k <= r_len r ->
  exists r', ref_to r k = Ok r' /\ points l a n r' (firstn k t) /\ r_len r' = k.
Proof.
  intros (E1 & E2 & E3 & E4) H. unfold ref_to. rewrite (proj2 (Nat.leb_le _ _) H). eexists. split; [reflexivity|].
  cbn [r_len]. split; [|reflexivity]. split; [exact E1|]. cbn [r_start r_len]. split; [lia|]. split; [exact E3|].
  rewrite <- E4. rewrite firstn_firstn. f_equal. lia.
Qed.

Section WithUnicode.
Context {UC : unicode}.

(** The patterns of the two models *)
Definition prel (l : list char) (a n : nat) (pm : pattern_m) (p : pattern) : Prop :=
  points l a n (pm_text pm) (p_text p)
  /\ (pm_has_uppercase pm, pm_match_type pm, pm_is_inverse pm, pm_leading_spaces pm, pm_trailing_spaces pm)
     = (p_has_uppercase p, p_match_type p, p_is_inverse p, p_leading_spaces p, p_trailing_spaces p).

Lemma prel_kept l l' a n n' pm p : kept n l l' -> n <= n' -> n' <= length l' -> prel l a n pm p -> prel l' a n' pm p.
Proof. intros K H1 H2 [P F]. split; [|exact F]. eapply points_kept; eassumption. Qed.

Lemma prel_read mem l a n pm p : alive (m_chars mem) a l -> prel l a n pm p -> read_pattern_m mem pm = Ok p.
Proof.
  intros Ha [P F]. unfold read_pattern_m. rewrite (points_deref _ _ _ _ _ _ _ Ha P). cbn [bind].
  destruct p as [t u k i x y]. cbn [p_text p_has_uppercase p_match_type p_is_inverse p_leading_spaces p_trailing_spaces] in *. congruence.
Qed.

Lemma mk_pattern_m_ok h l a n r t mt inv : alive h a l -> points l a n r t ->
  exists pm, mk_pattern_m h r mt inv = Ok pm /\ prel l a n pm (mk_pattern t mt inv).
Proof.
  intros Ha P. unfold mk_pattern_m. rewrite (points_deref _ _ _ _ _ _ _ Ha P). cbn [bind]. eexists. split; [reflexivity|].
  split; [exact P|reflexivity].
Qed.

Lemma pattern_parse_m_ok h l a n r t o : alive h a l -> points l a n r t -> pattern_parse t = Ok o ->
  exists om, pattern_parse_m h r = Ok om
    /\ match om, o with None, None => True | Some pm, Some p => prel l a n pm p | _, _ => False end.
Proof.
  intros Ha P. unfold pattern_parse, pattern_parse_m.
  assert (D : forall r t, points l a n r t -> deref h r = Ok t) by (intros; eapply points_deref; eassumption).
  rewrite (D _ _ P). pose proof (points_length _ _ _ _ _ _ P) as Hlen.
  destruct t as [|c0 t0]; [cbn in *; rewrite <- Hlen; discriminate|]. rewrite <- Hlen. cbn [length Nat.eqb negb assert_ bind].
  assert (S1 : exists inv mt r1 t1,
    (if starts_with (c0 :: t0) 33 then let* r := ref_from r 1 in Ok (true, Exact, r) else Ok (false, Fuzzy, r)) = Ok (inv, mt, r1)
    /\ (if starts_with (c0 :: t0) 33 then let* t := slice_from (c0 :: t0) 1 in Ok (true, Exact, t) else Ok (false, Fuzzy, c0 :: t0)) = Ok (inv, mt, t1)
    /\ points l a n r1 t1).
  { destruct (starts_with (c0 :: t0) 33).
    - destruct (points_from _ _ _ _ _ _ 1 P) as (r1 & E & P1 & _); [rewrite <- Hlen; cbn; lia|]. rewrite E. cbn [bind].
      rewrite slice_from_ok by (cbn; lia). cbn [bind]. eauto 10.
    - eauto 10. }
  destruct S1 as (inv & mt & r1 & t1 & E1 & E2 & P1). rewrite E1, E2. cbn [bind]. clear E1 E2.
  rewrite (D _ _ P1). cbn [bind]. pose proof (points_length _ _ _ _ _ _ P1) as Hl1. rewrite <- Hl1.
  assert (S2 : exists mt2 r2 t2,
    (if ends_with t1 36 && (1 <? length t1) then let* n := usub (length t1) 1 in let* r := ref_to r1 n in Ok (SuffixExact, r) else Ok (mt, r1)) = Ok (mt2, r2)
    /\ (if ends_with t1 36 && (1 <? length t1) then let* n := usub (length t1) 1 in let* t := slice_to t1 n in Ok (SuffixExact, t) else Ok (mt, t1)) = Ok (mt2, t2)
    /\ points l a n r2 t2).
  { destruct (ends_with t1 36 && (1 <? length t1)) eqn:E.
    - apply andb_prop in E as [_ E]. apply Nat.ltb_lt in E. rewrite usub_ok by lia. cbn [bind].
      destruct (points_to _ _ _ _ _ _ (length t1 - 1) P1) as (r2 & E2 & P2 & _); [lia|]. rewrite E2. cbn [bind].
      rewrite slice_to_ok by lia. cbn [bind]. eauto 10.
    - eauto 10. }
  destruct S2 as (mt2 & r2 & t2 & E1 & E2 & P2). rewrite E1, E2. cbn [bind]. clear E1 E2.
  rewrite (D _ _ P2). cbn [bind]. pose proof (points_length _ _ _ _ _ _ P2) as Hl2.
  assert (F : forall x, starts_with t2 x = true ->
    exists r3, ref_from r2 1 = Ok r3 /\ slice_from t2 1 = Ok (skipn 1 t2) /\ points l a n r3 (skipn 1 t2)).
  { intros x H. destruct t2 as [|y t2]; [discriminate|].
    destruct (points_from _ _ _ _ _ _ 1 P2) as (r3 & E & P3 & _); [rewrite <- Hl2; cbn; lia|].
    exists r3. split; [exact E|]. split; [apply slice_from_ok; cbn; lia|exact P3]. }
  assert (S3 : exists mt3 r3 t3,
    (if starts_with t2 39 then let* r := ref_from r2 1 in Ok (if negb inv then Exact else Fuzzy, r)
     else if starts_with t2 94 then let* r := ref_from r2 1 in Ok (if match_type_eqb mt2 SuffixExact then EqualExact else PrefixExact, r)
     else Ok (mt2, r2)) = Ok (mt3, r3)
    /\ (if starts_with t2 39 then let* t := slice_from t2 1 in Ok (if negb inv then Exact else Fuzzy, t)
     else if starts_with t2 94 then let* t := slice_from t2 1 in Ok (if match_type_eqb mt2 SuffixExact then EqualExact else PrefixExact, t)
     else Ok (mt2, t2)) = Ok (mt3, t3)
    /\ points l a n r3 t3).
  { destruct (starts_with t2 39) eqn:E39; [|destruct (starts_with t2 94) eqn:E94].
    - destruct (F _ E39) as (r3 & E1 & E2 & P3). rewrite E1, E2. cbn [bind]. eauto 10.
    - destruct (F _ E94) as (r3 & E1 & E2 & P3). rewrite E1, E2. cbn [bind]. eauto 10.
    - eauto 10. }
  destruct S3 as (mt3 & r3 & t3 & E1 & E2 & P3). rewrite E1, E2. cbn [bind]. clear E1 E2 F.
  pose proof (points_length _ _ _ _ _ _ P3) as Hl3. rewrite <- Hl3. destruct t3 as [|x t3]; cbn [length Nat.eqb].
  - intros [= <-]. exists None. auto.
  - intros [= <-]. destruct (mk_pattern_m_ok h l a n r3 (x :: t3) mt3 inv Ha P3) as (pm & E & R).
    rewrite E. cbn [bind]. exists (Some pm). auto.
Qed.

(** ** Patterns *)

(** [Forall2] on the used parts of the pattern buffers *)
Record psim (mem : memory) (pm : patterns_m) (pv : patterns) (L : list pattern_m) : Prop := MkPsim {
  si_words : wsim (m_chars mem) (ptm_words pm) (pt_words pv);
  si_alive : alive (m_patterns mem) (ptm_buf pm) L;
  si_length : length L = length (pt_buf pv);
  si_alloc : ptm_allocated pm = pt_allocated pv;
  si_room : pt_allocated pv <= length L;
  si_used : Forall2 (prel (w_buf (pt_words pv)) (wm_buf (ptm_words pm)) (w_allocated (pt_words pv)))
              (firstn (pt_allocated pv) L) (firstn (pt_allocated pv) (pt_buf pv));
  si_next : match ptm_next pm, pt_next pv with
            | None, None => True
            | Some x, Some y => prel (w_buf (pt_words pv)) (wm_buf (ptm_words pm)) (w_allocated (pt_words pv)) x y
            | _, _ => False
            end
}.

(** What steps leave alone *)
Record pext (mem : memory) (pm : patterns_m) (pv : patterns) (L : list pattern_m)
    (mem' : memory) (pm' : patterns_m) (pv' : patterns) (L' : list pattern_m) : Prop := MkPext {
  ex_buf : ptm_buf pm' = ptm_buf pm;
  ex_wbuf : wm_buf (ptm_words pm') = wm_buf (ptm_words pm);
  ex_chars : m_chars mem' = upd (m_chars mem) (wm_buf (ptm_words pm)) (Some (w_buf (pt_words pv')));
  ex_patterns : m_patterns mem' = upd (m_patterns mem) (ptm_buf pm) (Some L');
  ex_conditions : m_conditions mem' = m_conditions mem;
  ex_walloc : w_allocated (pt_words pv) <= w_allocated (pt_words pv');
  ex_wkept : kept (w_allocated (pt_words pv)) (w_buf (pt_words pv)) (w_buf (pt_words pv'));
  ex_alloc : pt_allocated pv <= pt_allocated pv';
  ex_kept : kept (pt_allocated pv) L L';
  ex_vkept : kept (pt_allocated pv) (pt_buf pv) (pt_buf pv')
}.

Lemma pext_refl mem pm pv L : psim mem pm pv L -> pext mem pm pv L mem pm pv L.
Proof.
  intros H. constructor; try reflexivity; try apply kept_refl.
  - symmetry. apply upd_same. apply H.
  - symmetry. apply upd_same. apply H.
Qed.

Lemma pext_trans m1 p1 v1 l1 m2 p2 v2 l2 m3 p3 v3 l3 :
  pext m1 p1 v1 l1 m2 p2 v2 l2 -> pext m2 p2 v2 l2 m3 p3 v3 l3 -> pext m1 p1 v1 l1 m3 p3 v3 l3.
Proof.
  intros A B. constructor.
  - rewrite (ex_buf _ _ _ _ _ _ _ _ B). apply A.
  - rewrite (ex_wbuf _ _ _ _ _ _ _ _ B). apply A.
  - rewrite (ex_chars _ _ _ _ _ _ _ _ B), (ex_chars _ _ _ _ _ _ _ _ A), (ex_wbuf _ _ _ _ _ _ _ _ A), upd_upd. reflexivity.
  - rewrite (ex_patterns _ _ _ _ _ _ _ _ B), (ex_patterns _ _ _ _ _ _ _ _ A), (ex_buf _ _ _ _ _ _ _ _ A), upd_upd. reflexivity.
  - rewrite (ex_conditions _ _ _ _ _ _ _ _ B). apply A.
  - pose proof (ex_walloc _ _ _ _ _ _ _ _ A). pose proof (ex_walloc _ _ _ _ _ _ _ _ B). lia.
  - eapply kept_trans; [apply A|]. eapply kept_le; [apply A|apply B].
  - pose proof (ex_alloc _ _ _ _ _ _ _ _ A). pose proof (ex_alloc _ _ _ _ _ _ _ _ B). lia.
  - eapply kept_trans; [apply A|]. eapply kept_le; [apply A|apply B].
  - eapply kept_trans; [apply A|]. eapply kept_le; [apply A|apply B].
Qed.

Lemma Forall2_prel_kept l l' a n n' ps qs : kept n l l' -> n <= n' -> n' <= length l' ->
  Forall2 (prel l a n) ps qs -> Forall2 (prel l' a n') ps qs.
Proof. intros K H1 H2 F. induction F; constructor; auto. eapply prel_kept; eassumption. Qed.

(** After [words_next] *)
Lemma psim_words mem pm pv L o w' : psim mem pm pv L -> words_next (pt_words pv) = Ok (o, w') ->
  exists h wm', words_next_m (m_chars mem) (ptm_words pm)
      = Ok (option_map (fun _ => MkRef (wm_buf (ptm_words pm)) (w_allocated (pt_words pv)) (w_allocated w' - w_allocated (pt_words pv))) o, h, wm')
    /\ psim (MkMem h (m_patterns mem) (m_conditions mem)) (MkPatternsM (ptm_buf pm) (ptm_allocated pm) wm' (ptm_next pm))
         (MkPatterns (pt_buf pv) (pt_allocated pv) w' (pt_next pv)) L
    /\ pext mem pm pv L (MkMem h (m_patterns mem) (m_conditions mem)) (MkPatternsM (ptm_buf pm) (ptm_allocated pm) wm' (ptm_next pm))
         (MkPatterns (pt_buf pv) (pt_allocated pv) w' (pt_next pv)) L
    /\ wm_buf wm' = wm_buf (ptm_words pm)
    /\ alive h (wm_buf wm') (w_buf w')
    /\ (forall t, o = Some t -> points (w_buf w') (wm_buf wm') (w_allocated w')
                     (MkRef (wm_buf (ptm_words pm)) (w_allocated (pt_words pv)) (w_allocated w' - w_allocated (pt_words pv))) t).
Proof.
  intros [S1 S2 S3 S4 S5 S6 S7] E.
  pose proof S1 as (_ & _ & _ & Hroom).
  destruct (words_next_keeps _ _ _ E Hroom) as (K & L1 & L2 & T).
  destruct (words_next_m_ok _ _ _ _ _ S1 E) as (wm' & E' & B & W').
  eexists. exists wm'. split; [exact E'|]. split; [|split; [|split; [exact B|split; [rewrite B; apply alive_upd; eapply alive_lt; apply S1|]]]].
  - constructor; cbn [m_chars m_patterns ptm_words ptm_buf ptm_allocated pt_words pt_buf pt_allocated ptm_next pt_next]; auto.
    + rewrite B. eapply Forall2_prel_kept; eassumption.
    + destruct (ptm_next pm), (pt_next pv); auto. rewrite B. eapply prel_kept; eassumption.
  - constructor; cbn [m_chars m_patterns m_conditions ptm_words ptm_buf ptm_allocated pt_words pt_buf pt_allocated]; auto; try apply kept_refl.
    symmetry. apply upd_same. exact S2.
  - intros t ->. specialize (T t eq_refl). split; [symmetry; exact B|]. cbn [r_start r_len]. split; [lia|]. split; [exact L2|].
    rewrite slice_ok in T by lia. congruence.
Qed.

Lemma firstn_upd_snoc A (l : list A) n x : n < length l -> firstn (n + 1) (upd l n x) = firstn n l ++ [x].
Proof.
  intros H. rewrite upd_firstn_skipn by exact H. rewrite firstn_app, firstn_length.
  replace (Nat.min n (length l)) with n by lia. replace (n + 1 - n) with 1 by lia.
  rewrite firstn_all2 by (rewrite firstn_length; lia). reflexivity.
Qed.

Lemma kept_upd A (l : list A) n x : n < length l -> kept n l (upd l n x).
Proof.
  intros H. split; [|apply length_upd]. rewrite upd_firstn_skipn by exact H.
  rewrite firstn_app, firstn_firstn, firstn_length. replace (n - Nat.min n (length l)) with 0 by lia.
  rewrite firstn_O, app_nil_r, Nat.min_id. reflexivity.
Qed.

(** After [patterns_alloc] *)
Lemma psim_alloc mem pm pv L x y pv' : psim mem pm pv L ->
  prel (w_buf (pt_words pv)) (wm_buf (ptm_words pm)) (w_allocated (pt_words pv)) x y ->
  patterns_alloc pv y = Ok pv' ->
  exists mem' pm' L', patterns_alloc_m mem pm x = Ok (mem', pm') /\ psim mem' pm' pv' L' /\ pext mem pm pv L mem' pm' pv' L'.
Proof.
  intros [S1 S2 S3 S4 S5 S6 S7] R E. unfold patterns_alloc in E. apply bind_ok in E as (b & E & E2). injection E2 as <-.
  unfold set_idx in E. destruct (Nat.ltb_spec (pt_allocated pv) (length (pt_buf pv))) as [H|]; [|discriminate]. injection E as <-.
  unfold patterns_alloc_m. rewrite (write_eq _ _ _ _ _ _ S2), S4. rewrite set_idx_ok by lia. cbn [bind].
  eexists _, _, _. split; [reflexivity|]. split.
  - constructor; cbn [m_chars m_patterns ptm_words ptm_buf ptm_allocated pt_words pt_buf pt_allocated ptm_next pt_next]; auto.
    + apply alive_upd. eapply alive_lt; exact S2.
    + rewrite !length_upd. exact S3.
    + rewrite length_upd. lia.
    + rewrite !firstn_upd_snoc by lia. apply Forall2_app; [exact S6|]. constructor; [exact R|constructor].
  - constructor; cbn [m_chars m_patterns m_conditions ptm_words ptm_buf ptm_allocated pt_words pt_buf pt_allocated]; auto; try apply kept_refl.
    + symmetry. apply upd_same. apply S1.
    + lia.
    + apply kept_upd. lia.
    + apply kept_upd. lia.
Qed.

Lemma patterns_next_loop_m_ok fuel : forall mem pm pv L b pv', psim mem pm pv L ->
  patterns_next_loop fuel pv b = Ok pv' ->
  exists mem' pm' L', patterns_next_loop_m fuel mem pm b = Ok (mem', pm') /\ psim mem' pm' pv' L' /\ pext mem pm pv L mem' pm' pv' L'.
Proof.
  induction fuel as [|fuel IH]; intros mem pm pv L b pv' S E; [discriminate|]. cbn [patterns_next_loop patterns_next_loop_m] in *.
  apply bind_ok in E as ([o w'] & E1 & E).
  destruct (psim_words _ _ _ _ _ _ S E1) as (h & wm' & E1' & S1 & X1 & B & Al & T). rewrite E1'. cbn [bind].
  destruct o as [t|]; cbn [option_map].
  2:{ injection E as <-. eauto 10. }
  specialize (T t eq_refl). rewrite (points_deref _ _ _ _ _ _ _ Al T). cbn [bind].
  assert (Next : forall b', patterns_next_loop fuel (MkPatterns (pt_buf pv) (pt_allocated pv) w' (pt_next pv)) b' = Ok pv' ->
    exists mem' pm' L', patterns_next_loop_m fuel (MkMem h (m_patterns mem) (m_conditions mem)) (MkPatternsM (ptm_buf pm) (ptm_allocated pm) wm' (ptm_next pm)) b' = Ok (mem', pm')
      /\ psim mem' pm' pv' L' /\ pext mem pm pv L mem' pm' pv' L').
  { intros b' E'. destruct (IH _ _ _ _ _ _ S1 E') as (mem' & pm' & L' & E2 & S2 & X2). exists mem', pm', L'. split; [exact E2|].
    split; [exact S2|]. eapply pext_trans; eassumption. }
  destruct (negb (is_or_separator t)); [|apply Next; exact E].
  apply bind_ok in E as (om & Ep & E). destruct (pattern_parse_m_ok _ _ _ _ _ _ _ Al T Ep) as (om' & Ep' & R). rewrite Ep'. cbn [bind].
  destruct om as [p|], om' as [x|]; try contradiction; [|apply Next; exact E].
  destruct b.
  - injection E as <-. eexists _, _, L. split; [reflexivity|]. split.
    + destruct S1. constructor; auto.
    + eapply pext_trans; [exact X1|]. pose proof (pext_refl _ _ _ _ S1) as Y. destruct Y. constructor; auto.
  - apply bind_ok in E as (pv1 & Ea & E).
    destruct (psim_alloc _ _ _ _ x p pv1 S1 R Ea) as (mem1 & pm1 & L1 & Ea' & S2 & X2). rewrite Ea'. cbn [bind].
    destruct (IH _ _ _ _ _ _ S2 E) as (mem' & pm' & L' & E2 & S3 & X3). exists mem', pm', L'. split; [exact E2|]. split; [exact S3|].
    eapply pext_trans; [exact X1|]. eapply pext_trans; eassumption.
Qed.

(** The conditions of the two models *)
Definition crel (l : list char) (a n : nat) (L : list pattern_m) (b k : nat) (r : sref) (ps : list pattern) : Prop :=
  exists xs, points L b k r xs /\ Forall2 (prel l a n) xs ps.

Lemma crel_kept l l' a n n' L L' b k k' r ps : kept n l l' -> n <= n' -> n' <= length l' ->
  kept k L L' -> k <= k' -> k' <= length L' -> crel l a n L b k r ps -> crel l' a n' L' b k' r ps.
Proof.
  intros K H1 H2 K' H3 H4 (xs & P & F). exists xs. split; [eapply points_kept; eassumption|eapply Forall2_prel_kept; eassumption].
Qed.

Lemma crel_read mem l a n L b k r ps : alive (m_chars mem) a l -> alive (m_patterns mem) b L ->
  crel l a n L b k r ps -> read_condition_m mem r = Ok ps.
Proof.
  intros A1 A2 (xs & P & F). unfold read_condition_m. rewrite (points_deref _ _ _ _ _ _ _ A2 P). cbn [bind].
  clear P. induction F as [|x p xs ps R F IH]; [reflexivity|]. cbn [read_all].
  rewrite (prel_read _ _ _ _ _ _ A1 R). cbn [bind]. rewrite IH. reflexivity.
Qed.

Lemma Forall2_skipn A B (R : A -> B -> Prop) x y : Forall2 R x y -> forall i, Forall2 R (skipn i x) (skipn i y).
Proof. induction 1; intros [|i]; cbn [skipn]; auto. Qed.

Lemma Forall2_firstn_skipn A B (R : A -> B -> Prop) l l' n i : Forall2 R (firstn n l) (firstn n l') ->
  Forall2 R (firstn (n - i) (skipn i l)) (firstn (n - i) (skipn i l')).
Proof. intros F. rewrite <- !skipn_firstn_comm. apply Forall2_skipn. exact F. Qed.

Lemma patterns_next_m_ok mem pm pv L o pv' : psim mem pm pv L -> patterns_next pv = Ok (o, pv') ->
  exists om mem' pm' L', patterns_next_m mem pm = Ok (om, mem', pm')
    /\ psim mem' pm' pv' L' /\ pext mem pm pv L mem' pm' pv' L'
    /\ match om, o with
       | None, None => True
       | Some r, Some ps => crel (w_buf (pt_words pv')) (wm_buf (ptm_words pm)) (w_allocated (pt_words pv')) L' (ptm_buf pm) (pt_allocated pv') r ps
       | _, _ => False
       end.
Proof.
  intros S E. unfold patterns_next in E. unfold patterns_next_m. apply bind_ok in E as ([pv1 b] & E1 & E).
  assert (S1 : exists mem1 pm1 L1,
    match ptm_next pm with
    | Some first_pattern =>
        let* '(mem, p) := patterns_alloc_m mem (MkPatternsM (ptm_buf pm) (ptm_allocated pm) (ptm_words pm) None) first_pattern in
        Ok (mem, p, true)
    | None => Ok (mem, pm, false)
    end = Ok (mem1, pm1, b) /\ psim mem1 pm1 pv1 L1 /\ pext mem pm pv L mem1 pm1 pv1 L1).
  { pose proof (si_next _ _ _ _ S) as N. destruct (ptm_next pm) as [x|] eqn:Ex, (pt_next pv) as [y|] eqn:Ey; try contradiction.
    - apply bind_ok in E1 as (pv2 & Ea & E1). injection E1 as <- <-.
      assert (S0 : psim mem (MkPatternsM (ptm_buf pm) (ptm_allocated pm) (ptm_words pm) None) (MkPatterns (pt_buf pv) (pt_allocated pv) (pt_words pv) None) L)
        by (destruct S; constructor; try exact I; auto).
      destruct (psim_alloc _ _ _ _ x y pv2 S0 N Ea) as (mem1 & pm1 & L1 & Ea' & S1 & X1). rewrite Ea'. cbn [bind].
      eexists _, _, _. split; [reflexivity|]. split; [exact S1|]. destruct X1. constructor; auto.
    - injection E1 as <- <-. eexists _, _, _. split; [reflexivity|]. split; [exact S|]. apply pext_refl. exact S. }
  destruct S1 as (mem1 & pm1 & L1 & E1' & S1 & X1). rewrite E1'. cbn [bind].
  apply bind_ok in E as (pv2 & E2 & E).
  assert (Es : wm_s (ptm_words pm1) = w_s (pt_words pv1)) by apply S1. rewrite Es.
  destruct (patterns_next_loop_m_ok _ _ _ _ _ _ _ S1 E2) as (mem2 & pm2 & L2 & E2' & S2 & X2). rewrite E2'. cbn [bind].
  pose proof (pext_trans _ _ _ _ _ _ _ _ _ _ _ _ X1 X2) as X.
  rewrite (si_alloc _ _ _ _ S2), (si_alloc _ _ _ _ S).
  destruct (pt_allocated pv2 =? pt_allocated pv).
  - injection E as <- <-. exists None, mem2, pm2, L2. split; [reflexivity|]. split; [exact S2|]. split; [exact X|exact I].
  - apply bind_ok in E as (ps & Ep & E). injection E as <- <-.
    unfold slice in Ep. destruct ((pt_allocated pv <=? pt_allocated pv2) && (pt_allocated pv2 <=? length (pt_buf pv2))) eqn:Eb; [|discriminate].
    apply andb_prop in Eb as [Eb1 Eb2]. apply Nat.leb_le in Eb1. apply Nat.leb_le in Eb2. injection Ep as <-.
    unfold borrow. rewrite (buffer_alive _ _ _ L2) by apply S2. cbn [bind].
    rewrite slice_ok by (rewrite ?(si_length _ _ _ _ S2); lia). cbn [bind].
    eexists (Some _), mem2, pm2, L2. split; [reflexivity|]. split; [exact S2|]. split; [exact X|].
    exists (firstn (pt_allocated pv2 - pt_allocated pv) (skipn (pt_allocated pv) L2)). split.
    + split; [apply X|]. cbn [r_start r_len]. split; [lia|]. split; [rewrite (si_length _ _ _ _ S2); lia|reflexivity].
    + rewrite <- (ex_wbuf _ _ _ _ _ _ _ _ X). apply Forall2_firstn_skipn. apply S2.
Qed.

(** ** The conditions and the query *)

(** The buffer of conditions *)
Record csim (mem : memory) (pm : patterns_m) (pv : patterns) (L : list pattern_m) (ad : nat)
    (D : list sref) (conds : list condition) (num : nat) : Prop := MkCsim {
  cs_alive : alive (m_conditions mem) ad D;
  cs_length : length D = length conds;
  cs_room : num <= length D;
  cs_used : Forall2 (crel (w_buf (pt_words pv)) (wm_buf (ptm_words pm)) (w_allocated (pt_words pv)) L (ptm_buf pm) (pt_allocated pv))
              (firstn num D) (firstn num conds)
}.

Lemma Forall2_imp A B (R R' : A -> B -> Prop) x y : (forall a b, R a b -> R' a b) -> Forall2 R x y -> Forall2 R' x y.
Proof. intros H F. induction F; constructor; auto. Qed.

Lemma csim_pext mem pm pv L mem' pm' pv' L' ad D conds num :
  psim mem' pm' pv' L' -> pext mem pm pv L mem' pm' pv' L' -> csim mem pm pv L ad D conds num -> csim mem' pm' pv' L' ad D conds num.
Proof.
  intros S X [C1 C2 C3 C4]. constructor; auto.
  - rewrite (ex_conditions _ _ _ _ _ _ _ _ X). exact C1.
  - rewrite (ex_wbuf _ _ _ _ _ _ _ _ X), (ex_buf _ _ _ _ _ _ _ _ X). eapply Forall2_imp; [|exact C4]. intros a b R.
    eapply crel_kept; [apply X|apply X|apply S|apply X|apply X|apply S|exact R].
Qed.

Lemma parse_loop_m_ok fuel : forall mem pm pv L ad D conds num pv' conds' num',
  psim mem pm pv L -> csim mem pm pv L ad D conds num ->
  parse_loop fuel pv conds num = Ok (pv', conds', num') ->
  exists mem' pm' L' D', parse_loop_m fuel mem pm ad num = Ok (mem', num')
    /\ psim mem' pm' pv' L' /\ csim mem' pm' pv' L' ad D' conds' num'
    /\ ptm_buf pm' = ptm_buf pm /\ wm_buf (ptm_words pm') = wm_buf (ptm_words pm)
    /\ m_chars mem' = upd (m_chars mem) (wm_buf (ptm_words pm)) (Some (w_buf (pt_words pv')))
    /\ m_patterns mem' = upd (m_patterns mem) (ptm_buf pm) (Some L')
    /\ m_conditions mem' = upd (m_conditions mem) ad (Some D').
Proof.
  induction fuel as [|fuel IH]; intros mem pm pv L ad D conds num pv' conds' num' S C E; [discriminate|]. cbn [parse_loop parse_loop_m] in *.
  apply bind_ok in E as ([o pv1] & E1 & E).
  destruct (patterns_next_m_ok _ _ _ _ _ _ S E1) as (om & mem1 & pm1 & L1 & E1' & S1 & X1 & R). rewrite E1'. cbn [bind].
  pose proof (csim_pext _ _ _ _ _ _ _ _ _ _ _ _ S1 X1 C) as C1.
  destruct o as [c|], om as [r|]; try contradiction.
  - apply bind_ok in E as (conds1 & E2 & E). unfold set_idx in E2. destruct (Nat.ltb_spec num (length conds)) as [Hn|]; [|discriminate].
    injection E2 as <-. pose proof (cs_length _ _ _ _ _ _ _ _ C1) as HL.
    rewrite (write_eq _ _ _ _ _ _ (cs_alive _ _ _ _ _ _ _ _ C1)). rewrite set_idx_ok by lia. cbn [bind].
    assert (S2 : psim (MkMem (m_chars mem1) (m_patterns mem1) (upd (m_conditions mem1) ad (Some (upd D num r)))) pm1 pv1 L1)
      by (destruct S1; constructor; auto).
    assert (C2 : csim (MkMem (m_chars mem1) (m_patterns mem1) (upd (m_conditions mem1) ad (Some (upd D num r)))) pm1 pv1 L1 ad
                   (upd D num r) (upd conds num c) (num + 1)).
    { destruct C1 as [A1 A2 A3 A4]. constructor; cbn [m_conditions].
      - apply alive_upd. eapply alive_lt; exact A1.
      - rewrite !length_upd. exact A2.
      - rewrite length_upd. lia.
      - rewrite !firstn_upd_snoc by lia. apply Forall2_app; [exact A4|]. constructor; [|constructor].
        rewrite (ex_wbuf _ _ _ _ _ _ _ _ X1), (ex_buf _ _ _ _ _ _ _ _ X1). exact R. }
    destruct (IH _ _ _ _ _ _ _ _ _ _ _ S2 C2 E) as (mem' & pm' & L' & D' & E3 & S3 & C3 & B1 & B2 & M1 & M2 & M3).
    exists mem', pm', L', D'. split; [exact E3|]. split; [exact S3|]. split; [exact C3|]. cbn [m_chars m_patterns m_conditions] in *.
    rewrite (ex_buf _ _ _ _ _ _ _ _ X1) in *. rewrite (ex_wbuf _ _ _ _ _ _ _ _ X1) in *.
    split; [exact B1|]. split; [exact B2|]. rewrite M1, M2, M3.
    rewrite (ex_chars _ _ _ _ _ _ _ _ X1), (ex_patterns _ _ _ _ _ _ _ _ X1), (ex_conditions _ _ _ _ _ _ _ _ X1), !upd_upd. auto.
  - injection E as <- <- <-. exists mem1, pm1, L1, D. split; [reflexivity|]. split; [exact S1|]. split; [exact C1|].
    split; [apply X1|]. split; [apply X1|]. split; [apply X1|]. split; [apply X1|].
    rewrite (ex_conditions _ _ _ _ _ _ _ _ X1). symmetry. apply upd_same. apply C.
Qed.

(** What a query reads as is determined by the three buffers of its parser: *)
Definition reads (l : list char) (a : nat) (L : list pattern_m) (b : nat) (D : list sref) (d : nat) (qm : query_m) (q : query) : Prop :=
  match qm, q with
  | NotExtendedM pm, NotExtended p => prel l a (length l) pm p
  | ExtendedM r, Extended cs =>
      exists rs, points D d (length D) r rs /\ Forall2 (crel l a (length l) L b (length L)) rs cs
  | _, _ => False
  end.

Lemma reads_read mem l a L b D d qm q : alive (m_chars mem) a l -> alive (m_patterns mem) b L -> alive (m_conditions mem) d D ->
  reads l a L b D d qm q -> read_query_m mem qm = Ok q.
Proof.
  intros A1 A2 A3. destruct qm as [r|pm], q as [cs|p]; cbn [reads read_query_m]; try contradiction.
  - intros (rs & P & F). rewrite (points_deref _ _ _ _ _ _ _ A3 P). cbn [bind].
    assert (G : read_all (read_condition_m mem) rs = Ok cs).
    { clear P. induction F as [|x p xs ps R F IH]; [reflexivity|]. cbn [read_all]. rewrite (crel_read _ _ _ _ _ _ _ _ _ A1 A2 R).
      cbn [bind]. rewrite IH. reflexivity. }
    rewrite G. reflexivity.
  - intros R. rewrite (prel_read _ _ _ _ _ _ A1 R). reflexivity.
Qed.

Lemma new_extended_m_ok mem l a L b D d r rs cs q :
  alive (m_patterns mem) b L -> alive (m_conditions mem) d D ->
  points D d (length D) r rs -> Forall2 (crel l a (length l) L b (length L)) rs cs ->
  new_extended cs = Ok q -> exists qm, new_extended_m mem r = Ok qm /\ reads l a L b D d qm q.
Proof.
  intros A2 A3 P F E. unfold new_extended_m. rewrite (points_deref _ _ _ _ _ _ _ A3 P). cbn [bind].
  assert (G : exists qm, Ok (ExtendedM r) = Ok qm /\ reads l a L b D d qm (Extended cs)).
  { eexists. split; [reflexivity|]. exists rs. auto. }
  unfold new_extended in E. destruct F as [|x c xs cs R F].
  - injection E as <-. exact G.
  - destruct F as [|x' c' xs cs R' F].
    2:{ injection E as <-. exact G. }
    destruct R as (ps & Pp & Fp). rewrite (points_deref _ _ _ _ _ _ _ A2 Pp). cbn [bind].
    destruct Fp as [|y p ys ps' Ry Fp]; [discriminate|].
    destruct Fp as [|y' p' ys ps' Ry' Fp].
    2:{ injection E as <-. exact G. }
    assert (Em : pm_match_type y = p_match_type p) by (destruct Ry as [_ Ry]; congruence). rewrite Em.
    destruct (p_match_type p); injection E as <-; try exact G. eexists. split; [reflexivity|]. exact Ry.
Qed.

(** ** [grow_vec] *)
Lemma grow_vec_ok A mv (h : heap A) a n d l : alive h a l ->
  exists h' a', grow_vec mv h a n d = Ok (h', a') /\ alive h' a' (if length l <? n then grow l n d else l)
    /\ length h <= length h' /\ (a' = a \/ length h <= a')
    /\ (forall b l', b <> a -> alive h b l' -> alive h' b l' /\ b <> a').
Proof.
  intros H. unfold grow_vec. rewrite (buffer_alive _ _ _ _ H). cbn [bind]. pose proof (alive_lt _ _ _ _ H) as Ha.
  destruct (length l <? n).
  - destruct mv.
    + eexists _, _. split; [reflexivity|].
      assert (E : length (upd h a None) = length h) by apply length_upd. split; [|split; [|split]].
      * rewrite <- E. apply alive_last.
      * rewrite app_length, E. lia.
      * lia.
      * intros b l' Hb K. split; [apply alive_app, alive_upd_other; auto|]. apply alive_lt in K. lia.
    + eexists _, _. split; [reflexivity|]. split; [apply alive_upd; exact Ha|]. split; [rewrite length_upd; lia|]. split; [auto|].
      intros b l' Hb K. split; [apply alive_upd_other; auto|exact Hb].
  - eexists _, _. split; [reflexivity|]. split; [exact H|]. split; [lia|]. split; auto.
Qed.

(** ** parse *)

(** The memory at the addresses of a parser *)
Definition live (mem : memory) (p : parser_m) (l : list char) (L : list pattern_m) (D : list sref) : Prop :=
  alive (m_chars mem) (pa_chars p) l /\ alive (m_patterns mem) (pa_patterns p) L /\ alive (m_conditions mem) (pa_conditions p) D.

(** Other parsers' buffers *)
Definition apart (p p' : parser_m) : Prop :=
  pa_chars p <> pa_chars p' /\ pa_patterns p <> pa_patterns p' /\ pa_conditions p <> pa_conditions p'.

Lemma grow_length_eq A B (l : list A) (l' : list B) n d d' : length l = length l' ->
  length (if length l <? n then grow l n d else l) = length (if length l' <? n then grow l' n d' else l').
Proof. intros E. rewrite E. destruct (length l' <? n); [|exact E]. unfold grow. rewrite !app_length, !repeat_length, E. reflexivity. Qed.

Lemma points_all A (l : list A) a n r t : points l a n r t -> points l a (length l) r t.
Proof. intros (H1 & H2 & H3 & H4). split; [exact H1|]. split; [lia|]. auto. Qed.

Lemma prel_all l a n pm p : prel l a n pm p -> prel l a (length l) pm p.
Proof. intros [P F]. split; [eapply points_all; exact P|exact F]. Qed.

Lemma crel_all l a n L b k r ps : crel l a n L b k r ps -> crel l a (length l) L b (length L) r ps.
Proof.
  intros (xs & P & F). exists xs. split; [eapply points_all; exact P|]. eapply Forall2_imp; [|exact F]. intros ? ?. apply prel_all.
Qed.

Lemma parse_m_ok mv mem p l L D s : live mem p l L D ->
  exists qm p' mem' l' L' D', parse_m mv mem p s = Ok (qm, p', mem') /\ live mem' p' l' L' D'
    /\ reads l' (pa_chars p') L' (pa_patterns p') D' (pa_conditions p') qm (query_of (parse_spec s))
    /\ length l' = Nat.max (length l) (byte_len s)
    /\ (forall r x X Y, apart r p -> live mem r x X Y -> live mem' r x X Y /\ apart r p')
    /\ (forall b x, b <> pa_chars p -> alive (m_chars mem) b x -> alive (m_chars mem') b x /\ b <> pa_chars p').
Proof.
  destruct mv as [[mv1 mv2] mv3]. intros (A1 & A2 & A3).
  set (vp := MkParser l (repeat default_pattern (length L)) (repeat (@nil pattern) (length D))).
  destruct (parse_correct vp s) as (ps' & E & _ & _ & _ & Elen). unfold parse in E. unfold parse_m. cbn [vp ps_chars ps_patterns ps_conditions] in E, Elen.
  remember (length (encode s) / 2 + 1) as n2 eqn:En2.
  destruct (grow_vec_ok _ mv1 _ _ (length (encode s)) 0%N _ A1) as (hc & ac & G1 & L1 & _ & N1 & O1). rewrite G1. cbn [bind].
  destruct (grow_vec_ok _ mv2 _ _ n2 empty_ref _ A3) as (hd & ad & G2 & L2 & _ & N2 & O2). rewrite G2. cbn [bind].
  destruct (grow_vec_ok _ mv3 _ _ n2 default_pattern_m _ A2) as (hp & ap & G3 & L3 & _ & N3 & O3). rewrite G3. cbn [bind].
  apply bind_ok in E as (pv & E1 & E). unfold patterns_new, words_new in E1. unfold patterns_new_m, words_new_m.
  apply bind_ok in E1 as (w & E1 & E1'). apply bind_ok in E1 as (s1 & E1 & E1''). injection E1'' as <-. injection E1' as <-.
  rewrite E1. cbn [bind]. apply bind_ok in E as ([[pv' conds'] num'] & E2 & E).
  apply bind_ok in E as (cs & E3 & E). apply bind_ok in E as (q & E4 & E). injection E as Eq <-. subst q. cbn [ps_chars] in Elen.
  match type of E2 with parse_loop _ ?v ?c _ = _ => set (pv := v) in *; set (conds := c) in * end.
  set (L0 := if length L <? n2 then grow L n2 default_pattern_m else L) in *.
  set (D0 := if length D <? n2 then grow D n2 empty_ref else D) in *.
  assert (S0 : psim (MkMem hc hp hd) (MkPatternsM ap 0 (MkWordsM ac 0 s1) None) pv L0).
  { constructor; cbn [pv m_chars m_patterns ptm_words ptm_buf ptm_allocated pt_words pt_buf pt_allocated ptm_next pt_next]; auto.
    - split; [exact L1|]. cbn. repeat split; auto. lia.
    - apply grow_length_eq. rewrite repeat_length. reflexivity.
    - lia.
    - constructor. }
  assert (C0 : csim (MkMem hc hp hd) (MkPatternsM ap 0 (MkWordsM ac 0 s1) None) pv L0 ad D0 conds 0).
  { constructor; cbn [m_conditions]; auto.
    - apply grow_length_eq. rewrite repeat_length. reflexivity.
    - lia.
    - constructor. }
  destruct (parse_loop_m_ok _ _ _ _ _ _ _ _ _ _ _ _ S0 C0 E2) as (mem' & pm' & L' & D' & E5 & S5 & C5 & B1 & B2 & M1 & M2 & M3).
  rewrite E5. cbn [bind ptm_buf ptm_words wm_buf m_chars m_patterns m_conditions] in *.
  unfold slice_to in E3. destruct (Nat.leb_spec num' (length conds')) as [Hn|]; [|discriminate].
  injection E3 as <-.
  unfold borrow. rewrite (buffer_alive _ _ _ D') by apply C5. cbn [bind]. rewrite slice_ok by (rewrite ?(cs_length _ _ _ _ _ _ _ _ C5); lia). cbn [bind].
  rewrite Nat.sub_0_r.
  pose proof (si_words _ _ _ _ S5) as (Wa & _). rewrite B2 in Wa.
  pose proof (si_alive _ _ _ _ S5) as Pa. rewrite B1 in Pa. pose proof (cs_alive _ _ _ _ _ _ _ _ C5) as Ca.
  destruct (new_extended_m_ok mem' (w_buf (pt_words pv')) ac L' ap D' ad (MkRef ad 0 num') (firstn num' D') (firstn num' conds') (query_of (parse_spec s)) Pa Ca) as (qm & E6 & R).
  { split; [reflexivity|]. cbn [r_start r_len skipn]. rewrite (cs_length _ _ _ _ _ _ _ _ C5). auto. }
  { pose proof (cs_used _ _ _ _ _ _ _ _ C5) as U. rewrite B1, B2 in U. eapply Forall2_imp; [|exact U]. intros ? ?. apply crel_all. }
  { exact E4. }
  rewrite E6. cbn [bind]. exists qm, (MkParserM ac ap ad), mem', (w_buf (pt_words pv')), L', D'. split; [reflexivity|].
  split; [split; [exact Wa|split; [exact Pa|exact Ca]]|]. split; [exact R|]. split; [exact Elen|].
  split; [|intros b x Q1 K1; destruct (O1 _ _ Q1 K1) as [K1' Q1']; split; [rewrite M1; apply alive_upd_other; auto|exact Q1']].
  intros r x X Y (Q1 & Q2 & Q3) (K1 & K2 & K3).
  destruct (O1 _ _ Q1 K1) as [K1' Q1']. destruct (O2 _ _ Q3 K3) as [K3' Q3']. destruct (O3 _ _ Q2 K2) as [K2' Q2'].
  split; [|split; [exact Q1'|split; [exact Q2'|exact Q3']]].
  split; [|split].
  - rewrite M1. apply alive_upd_other; auto.
  - rewrite M2. apply alive_upd_other; auto.
  - rewrite M3. apply alive_upd_other; auto.
Qed.

Lemma parse_not_extended_m_eq mem p l L D s : live mem p l L D ->
  if length s <=? length l then
    exists qm mem', parse_not_extended_m mem p s = Ok (qm, mem') /\ live mem' p (put l 0 s) L D
      /\ reads (put l 0 s) (pa_chars p) L (pa_patterns p) D (pa_conditions p) qm (new_not_extended s)
      /\ length (put l 0 s) = length l
      /\ (forall r x X Y, apart r p -> live mem r x X Y -> live mem' r x X Y)
      /\ (forall b x, b <> pa_chars p -> alive (m_chars mem) b x -> alive (m_chars mem') b x)
  else parse_not_extended_m mem p s = Panic.
Proof.
  intros (A1 & A2 & A3). unfold parse_not_extended_m. rewrite (words_alloc_m_eq _ _ _ _ _ A1).
  destruct (Nat.leb_spec (length s) (length l)) as [H|H].
  - rewrite words_alloc_spec by lia. cbn [bind Nat.add]. pose proof (alive_lt _ _ _ _ A1) as Hlt.
    assert (El : length (put l 0 s) = length l) by (apply put_length; lia).
    assert (A1' : alive (upd (m_chars mem) (pa_chars p) (Some (put l 0 s))) (pa_chars p) (put l 0 s)) by (apply alive_upd; exact Hlt).
    unfold borrow. rewrite (buffer_alive _ _ _ _ A1'). cbn [bind]. rewrite slice_ok by lia. cbn [bind]. rewrite Nat.sub_0_r.
    assert (P : points (put l 0 s) (pa_chars p) (length (put l 0 s)) (MkRef (pa_chars p) 0 (length s)) s).
    { split; [reflexivity|]. cbn [r_start r_len skipn]. split; [lia|]. split; [lia|].
      pose proof (firstn_put_all _ l 0 s) as F. cbn [Nat.add] in F. apply F. lia. }
    unfold new_not_extended_m. destruct (mk_pattern_m_ok _ _ _ _ _ _ Fuzzy false A1' P) as (pm & E & R). rewrite E. cbn [bind].
    eexists _, _. split; [reflexivity|]. split; [split; [exact A1'|split; assumption]|]. split; [exact R|]. split; [exact El|].
    split; [|intros b x Q1 K1; apply alive_upd_other; auto].
    intros r x X Y (Q1 & Q2 & Q3) (K1 & K2 & K3). split; [|split; assumption]. apply alive_upd_other; auto.
  - rewrite words_alloc_panic by lia. reflexivity.
Qed.

(** A caught panic leaves the parser alive, its buffer as long as before *)
Lemma words_alloc_left_m_eq s : forall h a l n, alive h a l ->
  words_alloc_left_m h a n s = upd h a (Some (words_alloc_left l n s)).
Proof.
  induction s as [|c s IH]; intros h a l n H; cbn [words_alloc_left_m words_alloc_left].
  - symmetry. apply upd_same. exact H.
  - rewrite (write_eq _ _ _ _ _ _ H). destruct (set_idx l n c) as [l'| |]; cbn [bind]; try (symmetry; apply upd_same; exact H).
    rewrite (IH _ a l' (n + 1)) by (apply alive_upd; eapply alive_lt; exact H). apply upd_upd.
Qed.

Lemma words_alloc_left_size s : forall (buf : list char) i, length (words_alloc_left buf i s) = length buf.
Proof.
  induction s as [|c s IH]; intros buf i; cbn [words_alloc_left]; [reflexivity|].
  destruct (Nat.lt_ge_cases i (length buf)) as [H|H].
  - rewrite set_idx_ok by exact H. rewrite IH. apply length_upd.
  - rewrite set_idx_panic by exact H. reflexivity.
Qed.

Lemma parse_not_extended_caught_m_ok mem p l L D s : live mem p l L D ->
  exists l', live (parse_not_extended_caught_m mem p s) p l' L D /\ length l' = length l
    /\ (forall r x X Y, apart r p -> live mem r x X Y -> live (parse_not_extended_caught_m mem p s) r x X Y)
    /\ (forall b x, b <> pa_chars p -> alive (m_chars mem) b x -> alive (m_chars (parse_not_extended_caught_m mem p s)) b x).
Proof.
  intros (A1 & A2 & A3). exists (words_alloc_left l 0 s). pose proof (alive_lt _ _ _ _ A1) as Hlt.
  unfold parse_not_extended_caught_m. rewrite (words_alloc_left_m_eq _ _ _ _ _ A1).
  split; [split; [apply alive_upd; exact Hlt|split; assumption]|]. split; [apply words_alloc_left_size|].
  split; [|intros b x Q1 K1; apply alive_upd_other; auto].
  intros r x X Y (Q1 & Q2 & Q3) (K1 & K2 & K3). split; [|split; assumption]. apply alive_upd_other; auto.
Qed.

(** ** Programs *)

(** What a query should read as *)
Definition wanted (extended : bool) (s : str) : query :=
  if extended then query_of (parse_spec s) else new_not_extended s.

Record inv (w : world) : Prop := MkInv {
  iv_live : forall i p, nth_error (w_parsers w) i = Some (Some p) ->
    exists l L D, live (w_mem w) p l L D /\ 64 <= length l;
  iv_apart : forall i j p p', i <> j -> nth_error (w_parsers w) i = Some (Some p) ->
    nth_error (w_parsers w) j = Some (Some p') -> apart p p';
  iv_loans : forall b, In b (w_loans w) -> exists p l L D,
    nth_error (w_parsers w) (l_parser b) = Some (Some p) /\ live (w_mem w) p l L D
    /\ reads l (pa_chars p) L (pa_patterns p) D (pa_conditions p) (l_query b) (wanted (l_extended b) (l_string b))
}.

Lemma live_app mem p l L D x y z : live mem p l L D ->
  live (MkMem (m_chars mem ++ x) (m_patterns mem ++ y) (m_conditions mem ++ z)) p l L D.
Proof. intros (H1 & H2 & H3). split; [|split]; apply alive_app; assumption. Qed.

Lemma live_new mem l L D :
  live (MkMem (m_chars mem ++ [Some l]) (m_patterns mem ++ [Some L]) (m_conditions mem ++ [Some D]))
    (MkParserM (length (m_chars mem)) (length (m_patterns mem)) (length (m_conditions mem))) l L D.
Proof. split; [|split]; apply alive_last. Qed.

Lemma live_apart_new mem p l L D : live mem p l L D ->
  apart p (MkParserM (length (m_chars mem)) (length (m_patterns mem)) (length (m_conditions mem))).
Proof.
  intros (H1 & H2 & H3). apply alive_lt in H1. apply alive_lt in H2. apply alive_lt in H3.
  split; [|split]; cbn; lia.
Qed.

Lemma apart_sym p p' : apart p p' -> apart p' p.
Proof. intros (H1 & H2 & H3). split; [|split]; auto. Qed.

Lemma nth_error_snoc A (l : list A) x i y : nth_error (l ++ [x]) i = Some y ->
  nth_error l i = Some y \/ (i = length l /\ x = y).
Proof.
  intros H. destruct (Nat.lt_ge_cases i (length l)) as [H'|H'].
  - rewrite nth_error_app1 in H by exact H'. auto.
  - rewrite nth_error_app2 in H by exact H'. destruct (i - length l) as [|k] eqn:E; cbn in H.
    + right. split; [lia|congruence].
    + destruct k; discriminate.
Qed.

(** A new parser, with buffers of its own *)
Lemma inv_snoc mem ps ls l L D : inv (MkWorld mem ps ls) -> 64 <= length l ->
  inv (MkWorld (MkMem (m_chars mem ++ [Some l]) (m_patterns mem ++ [Some L]) (m_conditions mem ++ [Some D]))
         (ps ++ [Some (MkParserM (length (m_chars mem)) (length (m_patterns mem)) (length (m_conditions mem)))]) ls).
Proof.
  intros [I1 I2 I3] Hl. cbn [w_mem w_parsers w_loans] in *. constructor; cbn [w_mem w_parsers w_loans].
  - intros i p H. apply nth_error_snoc in H as [H|[_ [= <-]]].
    + destruct (I1 _ _ H) as (x & X & Y & K & Hx). exists x, X, Y. split; [apply live_app; exact K|exact Hx].
    + exists l, L, D. split; [apply live_new|exact Hl].
  - intros i j p p' Hij H H'. apply nth_error_snoc in H as [H|[-> [= <-]]]; apply nth_error_snoc in H' as [H'|[-> [= <-]]].
    + eapply I2; eassumption.
    + destruct (I1 _ _ H) as (x & X & Y & K & _). eapply live_apart_new; exact K.
    + destruct (I1 _ _ H') as (x & X & Y & K & _). apply apart_sym. eapply live_apart_new; exact K.
    + congruence.
  - intros b Hb. destruct (I3 _ Hb) as (p & x & X & Y & H & K & R). exists p, x, X, Y. split; [|split; [apply live_app; exact K|exact R]].
    rewrite nth_error_app1; [exact H|]. apply nth_error_Some. congruence.
Qed.

Lemma in_other_loans i ls b : In b (other_loans i ls) <-> In b ls /\ l_parser b <> i.
Proof.
  unfold other_loans. rewrite filter_In. destruct (Nat.eqb_spec (l_parser b) i); cbn [negb]; intuition congruence.
Qed.

(** A step which works on parser [i] only *)
Lemma inv_at mem ps ls i p o mem' ls' : inv (MkWorld mem ps ls) -> nth_error ps i = Some (Some p) ->
  (forall r x X Y, apart r p -> live mem r x X Y -> live mem' r x X Y /\ forall p', o = Some p' -> apart r p') ->
  (forall p', o = Some p' -> exists l L D, live mem' p' l L D /\ 64 <= length l) ->
  (forall b, In b ls' -> (In b ls /\ l_parser b <> i) \/
     (l_parser b = i /\ exists p' l L D, o = Some p' /\ live mem' p' l L D
        /\ reads l (pa_chars p') L (pa_patterns p') D (pa_conditions p') (l_query b) (wanted (l_extended b) (l_string b)))) ->
  inv (MkWorld mem' (upd ps i o) ls').
Proof.
  intros [I1 I2 I3] Hi F Ho Hls. cbn [w_mem w_parsers w_loans] in *.
  assert (Hlt : i < length ps) by (apply nth_error_Some; congruence).
  assert (N : forall j x, nth_error (upd ps i o) j = Some x -> (j = i /\ x = o) \/ (j <> i /\ nth_error ps j = Some x)).
  { intros j x H. rewrite nth_error_upd in H. destruct (Nat.eqb_spec j i) as [->|Hj]; [|auto].
    apply Nat.ltb_lt in Hlt. rewrite Hlt in H. cbn [andb] in H. left. split; [reflexivity|congruence]. }
  constructor; cbn [w_mem w_parsers w_loans].
  - intros j q H. apply N in H as [[-> E]|[Hj H]]; [apply Ho; congruence|].
    destruct (I1 _ _ H) as (x & X & Y & K & Hx). exists x, X, Y. split; [|exact Hx]. apply F; [|exact K].
    eapply I2; eassumption.
  - intros j k q q' Hjk H H'. apply N in H as [[-> E]|[Hj H]]; apply N in H' as [[-> E']|[Hk H']].
    + contradiction.
    + destruct (I1 _ _ H') as (x & X & Y & K & _). apply apart_sym.
      destruct (F q' x X Y) as [_ G]; [eapply I2; eassumption|exact K|]. apply G. congruence.
    + destruct (I1 _ _ H) as (x & X & Y & K & _).
      destruct (F q x X Y) as [_ G]; [eapply I2; eassumption|exact K|]. apply G. congruence.
    + exact (I2 _ _ _ _ Hjk H H').
  - intros b Hb. destruct (Hls _ Hb) as [[Hb' Hn]|[Hn (p' & l & L & D & -> & K & R)]].
    + destruct (I3 _ Hb') as (q & x & X & Y & H & K & R). exists q, x, X, Y. split; [|split; [|exact R]].
      * rewrite nth_error_upd. destruct (Nat.eqb_spec (l_parser b) i); [congruence|exact H].
      * apply F; [|exact K]. eapply I2; eassumption.
    + exists p', l, L, D. split; [|auto]. rewrite Hn, nth_error_upd, Nat.eqb_refl. apply Nat.ltb_lt in Hlt. rewrite Hlt. reflexivity.
Qed.

Lemma inv_start : inv (MkWorld (MkMem [] [] []) [] []).
Proof.
  constructor; cbn [w_parsers w_loans w_mem].
  - intros [|i] p H; discriminate.
  - intros [|i] j p p' _ H; discriminate.
  - contradiction.
Qed.

Lemma inv_step w w' : inv w -> step w w' -> inv w'.
Proof.
  intros IH H. destruct H as [mem ps ls p mem' E|mem ps ls i p p' mem' Hi E|mem ps ls i p Hi|mem ps ls i p mv s q p' mem' Hi E|mem ps ls i p s q mem' Hi E|mem ps ls i p s Hi E].
    + unfold parser_new_m in E. apply pair_equal_spec in E as [<- <-]. apply inv_snoc; [exact IH|]. rewrite repeat_length. lia.
    + destruct (iv_live _ IH i p Hi) as (l & L & D & (K1 & K2 & K3) & Hl). cbn [w_mem] in *. unfold parser_clone_m in E.
      rewrite (buffer_alive _ _ _ _ K1), (buffer_alive _ _ _ _ K2), (buffer_alive _ _ _ _ K3) in E. cbn [bind] in E. injection E as <- <-.
      apply inv_snoc; assumption.
    + eapply inv_at; [exact IH|exact Hi| | |].
      * intros r x X Y (Q1 & Q2 & Q3) (K1 & K2 & K3). split; [|discriminate].
        split; [|split]; apply alive_upd_other; auto.
      * discriminate.
      * intros b Hb. left. apply in_other_loans. exact Hb.
    + destruct (iv_live _ IH i p Hi) as (l & L & D & K & Hl). cbn [w_mem] in *.
      destruct (parse_m_ok mv mem p l L D s K) as (q1 & p1 & mem1 & l1 & L1 & D1 & E1 & K1 & R1 & Hl1 & F & _).
      rewrite E1 in E. injection E as <- <- <-. eapply inv_at; [exact IH|exact Hi| | |].
      * intros r x X Y Q K'. destruct (F _ _ _ _ Q K') as [F1 F2]. split; [exact F1|]. intros p' [= <-]. exact F2.
      * intros p' [= <-]. exists l1, L1, D1. split; [exact K1|lia].
      * intros b [<-|Hb]; [right|left; apply in_other_loans; exact Hb]. split; [reflexivity|].
        exists p1, l1, L1, D1. auto.
    + destruct (iv_live _ IH i p Hi) as (l & L & D & K & Hl). cbn [w_mem] in *.
      pose proof (parse_not_extended_m_eq mem p l L D s K) as G. destruct (length s <=? length l); [|congruence].
      destruct G as (q1 & mem1 & E1 & K1 & R1 & Hl1 & F & _). rewrite E1 in E. injection E as <- <-.
      rewrite <- (upd_same _ ps i (Some p)) by exact Hi. eapply inv_at; [exact IH|exact Hi| | |].
      * intros r x X Y Q K'. split; [eapply F; eassumption|]. intros p' [= <-]. exact Q.
      * intros p' [= <-]. exists (put l 0 s), L, D. split; [exact K1|lia].
      * intros b [<-|Hb]; [right|left; apply in_other_loans; exact Hb]. split; [reflexivity|].
        exists p, (put l 0 s), L, D. auto.
    + destruct (iv_live _ IH i p Hi) as (l & L & D & K & Hl). cbn [w_mem] in *.
      destruct (parse_not_extended_caught_m_ok mem p l L D s K) as (l1 & K1 & Hl1 & F & _).
      rewrite <- (upd_same _ ps i (Some p)) by exact Hi. eapply inv_at; [exact IH|exact Hi| | |].
      * intros r x X Y Q K'. split; [eapply F; eassumption|]. intros p' [= <-]. exact Q.
      * intros p' [= <-]. exists l1, L, D. split; [exact K1|lia].
      * intros b Hb. left. apply in_other_loans. exact Hb.
Qed.

Lemma inv_reached w : world_reached w -> inv w.
Proof. induction 1 as [|w w' _ IH H]; [apply inv_start|eapply inv_step; eassumption]. Qed.

(** A call of a parser does not touch characters which are not in a parser's buffer *)
Lemma step_frame w w' b x : inv w -> step w w' -> alive (m_chars (w_mem w)) b x ->
  (forall i p, nth_error (w_parsers w) i = Some (Some p) -> b <> pa_chars p) ->
  alive (m_chars (w_mem w')) b x /\ (forall i p, nth_error (w_parsers w') i = Some (Some p) -> b <> pa_chars p).
Proof.
  intros IH H. assert (N : forall ps i o j (q : parser_m), nth_error (upd ps i o) j = Some (Some q) ->
      o = Some q \/ nth_error ps j = Some (Some q)).
  { intros ps i o j q H'. rewrite nth_error_upd in H'. destruct ((j =? i) && (i <? length ps)); [left; congruence|auto]. }
  destruct H as [mem ps ls p mem' E|mem ps ls i p p' mem' Hi E|mem ps ls i p Hi|mem ps ls i p mv s q p' mem' Hi E|mem ps ls i p s q mem' Hi E|mem ps ls i p s Hi E];
    cbn [w_mem w_parsers] in *; intros A F.
  - unfold parser_new_m in E. apply pair_equal_spec in E as [<- <-]. cbn [m_chars pa_chars]. split; [apply alive_app; exact A|].
    intros j q H. apply nth_error_snoc in H as [H|[_ [= <-]]]; [eapply F; exact H|]. apply alive_lt in A. cbn [pa_chars]. lia.
  - destruct (iv_live _ IH i p Hi) as (l & L & D & (K1 & K2 & K3) & Hl). cbn [w_mem] in *. unfold parser_clone_m in E.
    rewrite (buffer_alive _ _ _ _ K1), (buffer_alive _ _ _ _ K2), (buffer_alive _ _ _ _ K3) in E. cbn [bind] in E. injection E as <- <-.
    cbn [m_chars]. split; [apply alive_app; exact A|].
    intros j q H. apply nth_error_snoc in H as [H|[_ [= <-]]]; [eapply F; exact H|]. apply alive_lt in A. cbn [pa_chars]. lia.
  - unfold parser_drop_m. cbn [m_chars]. pose proof (F _ _ Hi) as Hb. split; [apply alive_upd_other; auto|].
    intros j q H. apply N in H as [H|H]; [discriminate|]. eapply F; exact H.
  - destruct (iv_live _ IH i p Hi) as (l & L & D & K & Hl). cbn [w_mem] in *.
    destruct (parse_m_ok mv mem p l L D s K) as (q1 & p1 & mem1 & l1 & L1 & D1 & E1 & K1 & R1 & Hl1 & _ & G).
    rewrite E1 in E. injection E as <- <- <-. destruct (G _ _ (F _ _ Hi) A) as [G1 G2]. split; [exact G1|].
    intros j q H. apply N in H as [[= <-]|H]; [exact G2|]. eapply F; exact H.
  - destruct (iv_live _ IH i p Hi) as (l & L & D & K & Hl). cbn [w_mem] in *.
    pose proof (parse_not_extended_m_eq mem p l L D s K) as G. destruct (length s <=? length l); [|congruence].
    destruct G as (q1 & mem1 & E1 & K1 & R1 & Hl1 & _ & G). rewrite E1 in E. injection E as <- <-.
    split; [apply G; [eapply F; exact Hi|exact A]|exact F].
  - destruct (iv_live _ IH i p Hi) as (l & L & D & K & Hl). cbn [w_mem] in *.
    destruct (parse_not_extended_caught_m_ok mem p l L D s K) as (l1 & _ & _ & _ & G).
    split; [apply G; [eapply F; exact Hi|exact A]|exact F].
Qed.

(** Every query which may still be read, reads as what the parser without memory returns *)
Lemma queries_read w b : inv w -> In b (w_loans w) ->
  exists q, read_query_m (w_mem w) (l_query b) = Ok q
    /\ if l_extended b then exists ps, parse parser_new (l_string b) = Ok (q, ps) else q = new_not_extended (l_string b).
Proof.
  intros H Hb. destruct (iv_loans _ H _ Hb) as (p & l & L & D & _ & (K1 & K2 & K3) & R).
  exists (wanted (l_extended b) (l_string b)). split; [eapply reads_read; eassumption|]. unfold wanted. destruct (l_extended b); [|reflexivity].
  destruct (parse_correct parser_new (l_string b)) as (ps & E & _). exists ps. exact E.
Qed.

Lemma queries_valid w b : world_reached w -> In b (w_loans w) ->
  exists q, read_query_m (w_mem w) (l_query b) = Ok q
    /\ if l_extended b then exists ps, parse parser_new (l_string b) = Ok (q, ps) else q = new_not_extended (l_string b).
Proof. intros H. apply queries_read, inv_reached, H. Qed.

(** No call meets a reference which is not valid *)
Lemma calls_return_inv w i p : inv w -> nth_error (w_parsers w) i = Some (Some p) ->
  (forall mv s, exists r, parse_m mv (w_mem w) p s = Ok r)
  /\ (exists r, parser_clone_m (w_mem w) p = Ok r)
  /\ (forall s, (exists r, parse_not_extended_m (w_mem w) p s = Ok r)
        <-> exists l, buffer (m_chars (w_mem w)) (pa_chars p) = Ok l /\ length s <= length l)
  /\ (exists l, buffer (m_chars (w_mem w)) (pa_chars p) = Ok l /\ 64 <= length l).
Proof.
  intros H Hi. destruct (iv_live _ H _ _ Hi) as (l & L & D & K & Hl). pose proof K as (K1 & K2 & K3).
  assert (B : buffer (m_chars (w_mem w)) (pa_chars p) = Ok l) by (apply buffer_alive; exact K1).
  split; [|split; [|split]].
  - intros mv s. destruct (parse_m_ok mv _ _ _ _ _ s K) as (q & p' & mem' & _ & _ & _ & E & _). eexists. exact E.
  - unfold parser_clone_m. rewrite B, (buffer_alive _ _ _ _ K2), (buffer_alive _ _ _ _ K3). eexists. reflexivity.
  - intros s. pose proof (parse_not_extended_m_eq _ _ _ _ _ s K) as G. rewrite B. destruct (Nat.leb_spec (length s) (length l)) as [Hs|Hs].
    + destruct G as (q1 & mem1 & E1 & _). split; intros _; [exists l; auto|eexists; exact E1].
    + split; [intros [r E]; congruence|]. intros (l' & [= <-] & Hs'). lia.
  - exists l. auto.
Qed.

Lemma calls_return w i p : world_reached w -> nth_error (w_parsers w) i = Some (Some p) ->
  (forall mv s, exists r, parse_m mv (w_mem w) p s = Ok r)
  /\ (exists r, parser_clone_m (w_mem w) p = Ok r)
  /\ (forall s, (exists r, parse_not_extended_m (w_mem w) p s = Ok r)
        <-> exists l, buffer (m_chars (w_mem w)) (pa_chars p) = Ok l /\ length s <= length l)
  /\ (exists l, buffer (m_chars (w_mem w)) (pa_chars p) = Ok l /\ 64 <= length l).
Proof. intros H. apply calls_return_inv, inv_reached, H. Qed.

(** ** Running programs, for examples. A panic of parse_not_extended is caught. *)
Inductive command :=
| DoNew
| DoClone (i : nat)
| DoDrop (i : nat)
| DoParse (i : nat) (mv : bool * bool * bool) (s : str)
| DoParseNotExtended (i : nat) (s : str).

Definition run1 (w : world) (c : command) : option world :=
  let the i := match nth_error (w_parsers w) i with Some o => o | None => None end in
  match c with
  | DoNew => let '(p, mem) := parser_new_m (w_mem w) in Some (MkWorld mem (w_parsers w ++ [Some p]) (w_loans w))
  | DoClone i =>
      match the i with
      | Some p => match parser_clone_m (w_mem w) p with
                  | Ok (p', mem) => Some (MkWorld mem (w_parsers w ++ [Some p']) (w_loans w))
                  | _ => None
                  end
      | None => None
      end
  | DoDrop i =>
      match the i with
      | Some p => Some (MkWorld (parser_drop_m (w_mem w) p) (upd (w_parsers w) i None) (other_loans i (w_loans w)))
      | None => None
      end
  | DoParse i mv s =>
      match the i with
      | Some p => match parse_m mv (w_mem w) p s with
                  | Ok (q, p', mem) => Some (MkWorld mem (upd (w_parsers w) i (Some p')) (MkLoan i q true s :: other_loans i (w_loans w)))
                  | _ => None
                  end
      | None => None
      end
  | DoParseNotExtended i s =>
      match the i with
      | Some p => match parse_not_extended_m (w_mem w) p s with
                  | Ok (q, mem) => Some (MkWorld mem (w_parsers w) (MkLoan i q false s :: other_loans i (w_loans w)))
                  | Panic => Some (MkWorld (parse_not_extended_caught_m (w_mem w) p s) (w_parsers w) (other_loans i (w_loans w)))
                  | OutOfFuel => None
                  end
      | None => None
      end
  end.

Definition run (cs : list command) (w : world) : option world :=
  fold_left (fun o c => match o with Some w => run1 w c | None => None end) cs (Some w).

Lemma run1_step w c w' : run1 w c = Some w' -> step w w'.
Proof.
  destruct w as [mem ps ls]. unfold run1. cbn [w_parsers w_mem w_loans].
  assert (T : forall i p, match nth_error ps i with Some o => o | None => None end = Some p -> nth_error ps i = Some (Some p))
    by (intros i p; destruct (nth_error ps i); congruence).
  destruct c as [|i|i|i mv s|i s].
  - destruct (parser_new_m mem) as [p mem1] eqn:E. intros [= <-]. constructor. exact E.
  - destruct (match nth_error ps i with Some o => o | None => None end) as [p|] eqn:Ei; [|discriminate]. apply T in Ei.
    destruct (parser_clone_m mem p) as [[p1 mem1]| |] eqn:E; try discriminate. intros [= <-]. econstructor; eassumption.
  - destruct (match nth_error ps i with Some o => o | None => None end) as [p|] eqn:Ei; [|discriminate]. apply T in Ei.
    intros [= <-]. constructor. exact Ei.
  - destruct (match nth_error ps i with Some o => o | None => None end) as [p|] eqn:Ei; [|discriminate]. apply T in Ei.
    destruct (parse_m mv mem p s) as [[[q p1] mem1]| |] eqn:E; try discriminate. intros [= <-]. econstructor; eassumption.
  - destruct (match nth_error ps i with Some o => o | None => None end) as [p|] eqn:Ei; [|discriminate]. apply T in Ei.
    destruct (parse_not_extended_m mem p s) as [[q mem1]| |] eqn:E; try discriminate; intros [= <-]; [eapply step_parse_not_extended|eapply step_caught]; eassumption.
Qed.

Lemma run_reached cs : forall w w', world_reached w -> run cs w = Some w' -> world_reached w'.
Proof.
  induction cs as [|c cs IH]; intros w w' H E; [injection E as <-; exact H|]. unfold run in E. cbn [fold_left] in E.
  destruct (run1 w c) as [w1|] eqn:E1.
  - apply (IH w1); [|exact E]. eapply wr_step; [exact H|]. eapply run1_step; exact E1.
  - exfalso. clear -E. induction cs as [|c' cs IH]; [discriminate|]. exact (IH E).
Qed.

(** What the queries in use read as *)
Definition all_read (w : world) : list (res query) := map (fun b => read_query_m (w_mem w) (l_query b)) (w_loans w).

End WithUnicode.

Definition empty_world : world := MkWorld (MkMem [] [] []) [] [].
