(** The parser with the rules on aliasing (Borrows.v) does what the parser without memory (Parser.v) does. *)
From Verif Require MemoryProofs.
From Verif Require Import Prelude Chars Utils Candidate Query Parser Borrows Spec PreludeProofs ParserProofs BorrowsProofs.
Local Open Scope nat_scope.

(** ** Words *)

(** The buffer [l] at [a], on which [r] is a mutable reference and tag [t] has a right of its own *)
Definition hold {A} (h : bheap A) (a : nat) (l : cells A) (r : bref) (t : nat) : Prop :=
  buf h a l /\ whole r l a /\ base t l.

Lemma hold_under A (h h' : bheap A) a l l' r t : hold h a l r t -> upto h h' a l' -> chg under l l' -> hold h' a l' r t.
Proof.
  intros (B & W & F) U C. split; [eapply upto_buf; eassumption|]. split; [eapply whole_under; eassumption|eapply base_chg; eassumption].
Qed.

Lemma hold_write A (h : bheap A) a l r t i x : hold h a l r t -> i < length l ->
  exists h' l', write h r i x = Ok h' /\ upto h h' a l' /\ hold h' a l' r t /\ map fst l' = upd (map fst l) i x /\ kept i l l'.
Proof.
  intros (B & W & F) H. destruct (write_ok _ h l a r i x B W H) as (h' & l' & E & U & W' & V & K & F').
  exists h', l'. split; [exact E|]. split; [exact U|]. split; [|auto]. split; [eapply upto_buf; eassumption|auto].
Qed.

Lemma words_alloc_b_ok s : forall h a lc r t n l' n', hold h a lc r t -> words_alloc (map fst lc) n s = Ok (l', n') ->
  exists h' lc', words_alloc_b h r n s = Ok (h', n') /\ upto h h' a lc' /\ hold h' a lc' r t /\ map fst lc' = l' /\ kept n lc lc'.
Proof.
  induction s as [|c s IH]; intros h a lc r t n l' n' H E; cbn [words_alloc words_alloc_b] in *.
  - injection E as <- <-. exists h, lc. split; [reflexivity|]. split; [apply upto_refl, H|]. split; [exact H|]. split; [reflexivity|apply kept_refl].
  - apply bind_ok in E as (l1 & E1 & E). unfold set_idx in E1. destruct (Nat.ltb_spec n (length (map fst lc))) as [Hn|]; [|discriminate].
    injection E1 as <-. rewrite map_length in Hn. destruct (hold_write _ h a lc r t n c H Hn) as (h1 & lc1 & E1 & U1 & H1 & V1 & K1).
    rewrite E1. cbn [bind]. rewrite <- V1 in E. destruct (IH _ _ _ _ _ _ _ _ H1 E) as (h2 & lc2 & E2 & U2 & H2 & V2 & K2).
    exists h2, lc2. split; [exact E2|]. split; [eapply upto_trans; eassumption|]. split; [exact H2|]. split; [exact V2|].
    eapply kept_trans; [exact K1|]. eapply kept_le; [|exact K2]. lia.
Qed.

Lemma words_next_loop_b_ok fuel : forall h a lc r t n s e l' n' e', hold h a lc r t ->
  words_next_loop fuel (map fst lc) n s e = Ok (l', n', e') ->
  exists h' lc', words_next_loop_b fuel h r n s e = Ok (h', n', e') /\ upto h h' a lc' /\ hold h' a lc' r t /\ map fst lc' = l' /\ kept n lc lc'.
Proof.
  induction fuel as [|fuel IH]; intros h a lc r t n s e l' n' e' H E; [discriminate|]. cbn [words_next_loop_b words_next_loop] in *.
  destruct (memchr SPACE s) as [[|k]|].
  - injection E as <- <- <-. exists h, lc. split; [reflexivity|]. split; [apply upto_refl, H|]. split; [exact H|]. split; [reflexivity|apply kept_refl].
  - apply bind_ok in E as (x & Ex & E). rewrite Ex. cbn [bind]. destruct (x =? BACKSLASH)%N.
    + apply bind_ok in E as (u & Eu & E). rewrite Eu. cbn [bind]. apply bind_ok in E as ([l1 n1] & E1 & E).
      destruct (words_alloc_b_ok _ _ _ _ _ _ _ _ _ H E1) as (h1 & lc1 & E1' & U1 & H1 & V1 & K1). rewrite E1'. cbn [bind].
      apply bind_ok in E as ([l2 n2] & E2 & E). rewrite <- V1 in E2.
      destruct (words_alloc_b_ok _ _ _ _ _ _ _ _ _ H1 E2) as (h2 & lc2 & E2' & U2 & H2 & V2 & K2). rewrite E2'. cbn [bind].
      apply bind_ok in E as (s' & Es & E). rewrite Es. cbn [bind]. rewrite <- V2 in E.
      destruct (IH _ _ _ _ _ _ _ _ _ _ _ H2 E) as (h3 & lc3 & E3 & U3 & H3 & V3 & K3).
      exists h3, lc3. split; [exact E3|]. split; [eapply upto_trans; [exact U1|]; eapply upto_trans; eassumption|].
      split; [exact H3|]. split; [exact V3|].
      apply MemoryProofs.words_alloc_keeps in E1 as (_ & L1 & _). apply MemoryProofs.words_alloc_keeps in E2 as (_ & L2 & _).
      eapply kept_trans; [exact K1|]. eapply kept_trans; [eapply kept_le; [|exact K2]; lia|]. eapply kept_le; [|exact K3]. lia.
    + apply bind_ok in E as (u & Eu & E). rewrite Eu. cbn [bind]. apply bind_ok in E as ([l1 n1] & E1 & E). injection E as <- <- <-.
      destruct (words_alloc_b_ok _ _ _ _ _ _ _ _ _ H E1) as (h1 & lc1 & E1' & U1 & H1 & V1 & K1). rewrite E1'. cbn [bind].
      exists h1, lc1. auto.
  - apply bind_ok in E as ([l1 n1] & E1 & E). injection E as <- <- <-.
    destruct (words_alloc_b_ok _ _ _ _ _ _ _ _ _ H E1) as (h1 & lc1 & E1' & U1 & H1 & V1 & K1). rewrite E1'. cbn [bind].
    exists h1, lc1. auto.
Qed.

(** The words of the two models *)
Definition wsim (h : bheap char) (wb : words_b) (w : words) (lc : cells char) (v : bvec) : Prop :=
  hold h (v_addr v) lc (wb_buf wb) (v_tag v) /\ map fst lc = w_buf w /\ wb_allocated wb = w_allocated w /\ wb_s wb = w_s w
  /\ w_allocated w <= length (w_buf w).

Lemma wsim_under h h' wb w lc lc' v : wsim h wb w lc v -> upto h h' (v_addr v) lc' -> chg under lc lc' -> wsim h' wb w lc' v.
Proof.
  intros (H & V & R) U C. split; [eapply hold_under; eassumption|]. split; [|exact R]. rewrite (chg_values _ _ _ _ C). exact V.
Qed.

Lemma wsim_length h wb w lc v : wsim h wb w lc v -> length (w_buf w) = length lc.
Proof. intros (_ & V & _). rewrite <- V. apply map_length. Qed.

Lemma words_next_b_ok h wb w o w' lc v : wsim h wb w lc v -> words_next w = Ok (o, w') ->
  exists o' h' lc' wb', words_next_b h wb = Ok (o', h', wb') /\ upto h h' (v_addr v) lc' /\ wsim h' wb' w' lc' v
    /\ kept (w_allocated w) lc lc' /\ w_allocated w <= w_allocated w'
    /\ match o', o with
       | None, None => True
       | Some r, Some t => pts lc' (v_addr v) (w_allocated w') r t
       | _, _ => False
       end.
Proof.
  intros S E. pose proof S as (H & V & Hn & Hs & Hl).
  destruct (MemoryProofs.words_next_keeps _ _ _ E Hl) as (_ & Hle & Hl' & _).
  unfold words_next in E. unfold words_next_b. rewrite Hs, Hn. destruct (w_s w) as [|b s] eqn:Es.
  - injection E as <- <-. exists None, h, lc, wb. split; [reflexivity|]. split; [apply upto_refl, H|]. split; [exact S|].
    split; [apply kept_refl|]. auto.
  - apply bind_ok in E as ([[l n] e] & E1 & E). rewrite <- V in E1.
    destruct (words_next_loop_b_ok _ _ _ _ _ _ _ _ _ _ _ _ H E1) as (h1 & lc1 & E1' & U1 & H1 & V1 & K1). rewrite E1'. cbn [bind].
    apply bind_ok in E as (r & E2 & E). rewrite E2. cbn [bind]. apply bind_ok in E as (s' & E3 & E). rewrite E3. cbn [bind].
    apply bind_ok in E as (t & E4 & E). injection E as <- <-. cbn [w_buf w_allocated w_s] in *.
    pose proof H1 as (B1 & W1 & F1). assert (Ll : length l = length lc1) by (rewrite <- V1; apply map_length).
    destruct (subslice_whole _ h1 lc1 _ _ (w_allocated w) n B1 W1) as (h2 & lc2 & r2 & E5 & U2 & C2 & P2 & _); [exact Hle|lia|].
    rewrite E5. cbn [bind]. rewrite V1 in P2. rewrite slice_ok in E4 by lia. injection E4 as E4. rewrite E4 in P2.
    eexists (Some r2), h2, lc2, _. split; [reflexivity|]. split; [eapply upto_trans; eassumption|].
    split; [|split; [|split; [exact Hle|exact P2]]].
    + split; [eapply hold_under; [exact H1|exact U2|exact C2]|]. cbn [w_buf wb_allocated wb_s w_allocated w_s].
      split; [rewrite (chg_values _ _ _ _ C2); exact V1|]. auto.
    + eapply kept_trans; [exact K1|]. apply kept_chg, under_ext. exact C2.
Qed.

Section WithUnicode.
Context {UC : unicode}.

(** ** Patterns *)

(** The patterns of the two models *)
Definition prel (l : cells char) (a n : nat) (pb : pattern_b) (p : pattern) : Prop :=
  pts l a n (pb_text pb) (p_text p)
  /\ (pb_has_uppercase pb, pb_match_type pb, pb_is_inverse pb, pb_leading_spaces pb, pb_trailing_spaces pb)
     = (p_has_uppercase p, p_match_type p, p_is_inverse p, p_leading_spaces p, p_trailing_spaces p).

Lemma prel_kept l l' a n n' pb p : kept n l l' -> n <= n' -> n' <= length l' -> prel l a n pb p -> prel l' a n' pb p.
Proof. intros K H1 H2 [P F]. split; [|exact F]. eapply pts_kept; eassumption. Qed.

Lemma set_chars_same mem : set_chars mem (bm_chars mem) = mem.
Proof. destruct mem. reflexivity. Qed.

Lemma set_patterns_same mem : set_patterns mem (bm_patterns mem) = mem.
Proof. destruct mem. reflexivity. Qed.

Lemma set_conditions_same mem : set_conditions mem (bm_conditions mem) = mem.
Proof. destruct mem. reflexivity. Qed.

Lemma prel_read mem l a n pb p : buf (bm_chars mem) a l -> prel l a n pb p -> read_pattern_b mem pb = Ok (p, mem).
Proof.
  intros Ha [P F]. unfold read_pattern_b. rewrite (read_ok _ _ _ _ _ _ _ Ha P). cbn [bind]. rewrite set_chars_same.
  destruct p as [t u k i x y]. cbn [p_text p_has_uppercase p_match_type p_is_inverse p_leading_spaces p_trailing_spaces] in *. congruence.
Qed.

Lemma mk_pattern_b_ok h l a n r t mt inv : buf h a l -> pts l a n r t ->
  exists pb, mk_pattern_b h r mt inv = Ok (pb, h) /\ prel l a n pb (mk_pattern t mt inv).
Proof.
  intros Ha P. unfold mk_pattern_b. rewrite (read_ok _ _ _ _ _ _ _ Ha P). cbn [bind]. eexists. split; [reflexivity|].
  split; [exact P|reflexivity].
Qed.

(** Some references more *)
Definition more (h : bheap char) (l : cells char) (a : nat) (h' : bheap char) (l' : cells char) : Prop := upto h h' a l' /\ chg under l l' /\ buf h' a l'.

Lemma more_refl h l a : buf h a l -> more h l a h l.
Proof. intros H. split; [apply upto_refl; exact H|]. split; [apply chg_refl, under_refl|exact H]. Qed.

Lemma more_trans h1 l1 a h2 l2 h3 l3 : more h1 l1 a h2 l2 -> more h2 l2 a h3 l3 -> more h1 l1 a h3 l3.
Proof.
  intros (A & B & C) (A' & B' & C'). split; [eapply upto_trans; eassumption|]. split; [eapply chg_trans; [apply under_trans|exact B|exact B']|exact C'].
Qed.

Lemma sub_more h l a n r t i j : buf h a l -> pts l a n r t -> i <= j -> j <= b_len r ->
  exists h' l' r', subslice h r i j = Ok (r', h') /\ more h l a h' l' /\ pts l' a n r' (firstn (j - i) (skipn i t)).
Proof.
  intros B P Hij Hj. destruct (subslice_pts _ h l a n r t i j B P Hij Hj) as (h' & l' & r' & E & U & C & P' & _).
  exists h', l', r'. split; [exact E|]. split; [|exact P']. split; [exact U|]. split; [exact C|eapply upto_buf; eassumption].
Qed.

Lemma sub_tail h l a n r t : buf h a l -> pts l a n r t -> 1 <= b_len r ->
  exists h' l' r', subslice h r 1 (b_len r) = Ok (r', h') /\ more h l a h' l' /\ pts l' a n r' (skipn 1 t).
Proof.
  intros B P H. destruct (sub_more _ _ _ _ _ _ 1 (b_len r) B P H (le_n _)) as (h' & l' & r' & E & M & P').
  exists h', l', r'. split; [exact E|]. split; [exact M|]. rewrite firstn_all2 in P'; [exact P'|].
  rewrite skipn_length, (pts_length _ _ _ _ _ _ P). lia.
Qed.

Lemma pattern_parse_b_ok h l a n r t o : buf h a l -> pts l a n r t -> pattern_parse t = Ok o ->
  exists ob h' l', pattern_parse_b h r = Ok (ob, h') /\ more h l a h' l'
    /\ match ob, o with None, None => True | Some pb, Some p => prel l' a n pb p | _, _ => False end.
Proof.
  intros Ha P. unfold pattern_parse, pattern_parse_b.
  rewrite (read_ok _ _ _ _ _ _ _ Ha P). pose proof (pts_length _ _ _ _ _ _ P) as Hlen.
  destruct t as [|c0 t0]; [cbn in *; rewrite <- Hlen; discriminate|]. rewrite <- Hlen. cbn [length Nat.eqb negb assert_ bind].
  assert (S1 : exists inv mt r1 t1 h1 l1,
    (if starts_with (c0 :: t0) 33 then let* '(r, h) := subslice h r 1 (S (length t0)) in Ok (true, Exact, r, h) else Ok (false, Fuzzy, r, h)) = Ok (inv, mt, r1, h1)
    /\ (if starts_with (c0 :: t0) 33 then let* t := slice_from (c0 :: t0) 1 in Ok (true, Exact, t) else Ok (false, Fuzzy, c0 :: t0)) = Ok (inv, mt, t1)
    /\ more h l a h1 l1 /\ pts l1 a n r1 t1).
  { destruct (starts_with (c0 :: t0) 33).
    - destruct (sub_tail _ _ _ _ _ _ Ha P) as (h1 & l1 & r1 & E & M & P1); [rewrite <- Hlen; cbn; lia|]. rewrite <- Hlen in E. cbn [length] in E.
      rewrite E. cbn [bind]. rewrite slice_from_ok by (cbn; lia). cbn [bind]. eauto 12.
    - exists false, Fuzzy, r, (c0 :: t0), h, l. split; [reflexivity|]. split; [reflexivity|]. split; [apply more_refl; exact Ha|exact P]. }
  destruct S1 as (inv & mt & r1 & t1 & h1 & l1 & E1 & E2 & M1 & P1). rewrite E1, E2. cbn [bind]. clear E1 E2.
  pose proof M1 as (_ & _ & B1).
  rewrite (read_ok _ _ _ _ _ _ _ B1 P1). cbn [bind]. pose proof (pts_length _ _ _ _ _ _ P1) as Hl1. rewrite <- Hl1.
  assert (S2 : exists mt2 r2 t2 h2 l2,
    (if ends_with t1 36 && (1 <? length t1) then let* n := usub (length t1) 1 in let* '(r, h) := subslice h1 r1 0 n in Ok (SuffixExact, r, h) else Ok (mt, r1, h1)) = Ok (mt2, r2, h2)
    /\ (if ends_with t1 36 && (1 <? length t1) then let* n := usub (length t1) 1 in let* t := slice_to t1 n in Ok (SuffixExact, t) else Ok (mt, t1)) = Ok (mt2, t2)
    /\ more h1 l1 a h2 l2 /\ pts l2 a n r2 t2).
  { destruct (ends_with t1 36 && (1 <? length t1)) eqn:E.
    - apply andb_prop in E as [_ E]. apply Nat.ltb_lt in E. rewrite usub_ok by lia. cbn [bind].
      destruct (sub_more _ _ _ _ _ _ 0 (length t1 - 1) B1 P1) as (h2 & l2 & r2 & E2 & M2 & P2); [lia|lia|]. rewrite E2. cbn [bind].
      rewrite slice_to_ok by lia. cbn [bind]. rewrite Nat.sub_0_r in P2. cbn [skipn] in P2. eauto 12.
    - exists mt, r1, t1, h1, l1. split; [reflexivity|]. split; [reflexivity|]. split; [apply more_refl; exact B1|exact P1]. }
  destruct S2 as (mt2 & r2 & t2 & h2 & l2 & E1 & E2 & M2 & P2). rewrite E1, E2. cbn [bind]. clear E1 E2.
  pose proof M2 as (_ & _ & B2).
  rewrite (read_ok _ _ _ _ _ _ _ B2 P2). cbn [bind]. pose proof (pts_length _ _ _ _ _ _ P2) as Hl2.
  assert (F : forall x, starts_with t2 x = true ->
    exists h3 l3 r3, subslice h2 r2 1 (b_len r2) = Ok (r3, h3) /\ slice_from t2 1 = Ok (skipn 1 t2) /\ more h2 l2 a h3 l3 /\ pts l3 a n r3 (skipn 1 t2)).
  { intros x H. destruct t2 as [|y t2]; [discriminate|].
    destruct (sub_tail _ _ _ _ _ _ B2 P2) as (h3 & l3 & r3 & E & M & P3); [rewrite <- Hl2; cbn; lia|].
    exists h3, l3, r3. split; [exact E|]. split; [apply slice_from_ok; cbn; lia|]. auto. }
  assert (S3 : exists mt3 r3 t3 h3 l3,
    (if starts_with t2 39 then let* '(r, h) := subslice h2 r2 1 (b_len r2) in Ok (if negb inv then Exact else Fuzzy, r, h)
     else if starts_with t2 94 then let* '(r, h) := subslice h2 r2 1 (b_len r2) in Ok (if match_type_eqb mt2 SuffixExact then EqualExact else PrefixExact, r, h)
     else Ok (mt2, r2, h2)) = Ok (mt3, r3, h3)
    /\ (if starts_with t2 39 then let* t := slice_from t2 1 in Ok (if negb inv then Exact else Fuzzy, t)
     else if starts_with t2 94 then let* t := slice_from t2 1 in Ok (if match_type_eqb mt2 SuffixExact then EqualExact else PrefixExact, t)
     else Ok (mt2, t2)) = Ok (mt3, t3)
    /\ more h2 l2 a h3 l3 /\ pts l3 a n r3 t3).
  { destruct (starts_with t2 39) eqn:E39; [|destruct (starts_with t2 94) eqn:E94].
    - destruct (F _ E39) as (h3 & l3 & r3 & E1 & E2 & M3 & P3). rewrite E1, E2. cbn [bind]. eauto 12.
    - destruct (F _ E94) as (h3 & l3 & r3 & E1 & E2 & M3 & P3). rewrite E1, E2. cbn [bind]. eauto 12.
    - exists mt2, r2, t2, h2, l2. split; [reflexivity|]. split; [reflexivity|]. split; [apply more_refl; exact B2|exact P2]. }
  destruct S3 as (mt3 & r3 & t3 & h3 & l3 & E1 & E2 & M3 & P3). rewrite E1, E2. cbn [bind]. clear E1 E2 F.
  assert (M : more h l a h3 l3) by (eapply more_trans; [exact M1|]; eapply more_trans; eassumption).
  pose proof M3 as (_ & _ & B3).
  pose proof (pts_length _ _ _ _ _ _ P3) as Hl3. rewrite <- Hl3. destruct t3 as [|x t3]; cbn [length Nat.eqb].
  - intros [= <-]. exists None, h3, l3. auto.
  - intros [= <-]. destruct (mk_pattern_b_ok h3 l3 a n r3 (x :: t3) mt3 inv B3 P3) as (pb & E & R).
    rewrite E. cbn [bind]. exists (Some pb), h3, l3. auto.
Qed.

(** The used parts of the buffers *)
Record psim (mem : bmemory) (pb : patterns_b) (pv : patterns) (L : cells pattern_b) (lc : cells char) (vc vp : bvec) : Prop := MkPsim {
  si_words : wsim (bm_chars mem) (ptb_words pb) (pt_words pv) lc vc;
  si_hold : hold (bm_patterns mem) (v_addr vp) L (ptb_buf pb) (v_tag vp);
  si_length : length L = length (pt_buf pv);
  si_alloc : ptb_allocated pb = pt_allocated pv;
  si_room : pt_allocated pv <= length L;
  si_used : Forall2 (prel lc (v_addr vc) (w_allocated (pt_words pv)))
              (firstn (pt_allocated pv) (map fst L)) (firstn (pt_allocated pv) (pt_buf pv));
  si_next : match ptb_next pb, pt_next pv with
            | None, None => True
            | Some x, Some y => prel lc (v_addr vc) (w_allocated (pt_words pv)) x y
            | _, _ => False
            end
}.

(** What steps leave alone *)
Record pext (mem : bmemory) (pv : patterns) (L : cells pattern_b) (lc : cells char)
    (mem' : bmemory) (pv' : patterns) (L' : cells pattern_b) (lc' : cells char) (vc vp : bvec) : Prop := MkPext {
  ex_chars : upto (bm_chars mem) (bm_chars mem') (v_addr vc) lc';
  ex_patterns : upto (bm_patterns mem) (bm_patterns mem') (v_addr vp) L';
  ex_conditions : bm_conditions mem' = bm_conditions mem;
  ex_walloc : w_allocated (pt_words pv) <= w_allocated (pt_words pv');
  ex_wkept : kept (w_allocated (pt_words pv)) lc lc';
  ex_alloc : pt_allocated pv <= pt_allocated pv';
  ex_kept : kept (pt_allocated pv) L L'
}.

Lemma pext_refl mem pb pv L lc vc vp : psim mem pb pv L lc vc vp -> pext mem pv L lc mem pv L lc vc vp.
Proof.
  intros H. constructor; try reflexivity; try apply kept_refl.
  - apply upto_refl. apply H.
  - apply upto_refl. apply H.
Qed.

Lemma pext_trans m1 v1 L1 l1 m2 v2 L2 l2 m3 v3 L3 l3 vc vp :
  pext m1 v1 L1 l1 m2 v2 L2 l2 vc vp -> pext m2 v2 L2 l2 m3 v3 L3 l3 vc vp -> pext m1 v1 L1 l1 m3 v3 L3 l3 vc vp.
Proof.
  intros [A1 A2 A3 A4 A5 A6 A7] [B1 B2 B3 B4 B5 B6 B7]. constructor.
  - eapply upto_trans; eassumption.
  - eapply upto_trans; eassumption.
  - congruence.
  - lia.
  - eapply kept_trans; [exact A5|]. eapply kept_le; [exact A4|exact B5].
  - lia.
  - eapply kept_trans; [exact A7|]. eapply kept_le; [exact A6|exact B7].
Qed.

Lemma Forall2_prel_kept l l' a n n' ps qs : kept n l l' -> n <= n' -> n' <= length l' ->
  Forall2 (prel l a n) ps qs -> Forall2 (prel l' a n') ps qs.
Proof. intros K H1 H2 F. induction F; constructor; auto. eapply prel_kept; eassumption. Qed.

(** After [words_next] *)
Lemma psim_words mem pb pv L lc vc vp o w' : psim mem pb pv L lc vc vp -> words_next (pt_words pv) = Ok (o, w') ->
  exists ob h lc' wb', words_next_b (bm_chars mem) (ptb_words pb) = Ok (ob, h, wb')
    /\ psim (set_chars mem h) (MkPatternsB (ptb_buf pb) (ptb_allocated pb) wb' (ptb_next pb))
         (MkPatterns (pt_buf pv) (pt_allocated pv) w' (pt_next pv)) L lc' vc vp
    /\ pext mem pv L lc (set_chars mem h) (MkPatterns (pt_buf pv) (pt_allocated pv) w' (pt_next pv)) L lc' vc vp
    /\ match ob, o with
       | None, None => True
       | Some r, Some t => pts lc' (v_addr vc) (w_allocated w') r t
       | _, _ => False
       end.
Proof.
  intros [S1 S2 S3 S4 S5 S6 S7] E.
  destruct (words_next_b_ok _ _ _ _ _ _ _ S1 E) as (ob & h & lc' & wb' & E' & U & W' & K & Hle & T).
  pose proof (wsim_length _ _ _ _ _ W') as HL. pose proof W' as (_ & _ & _ & _ & Hroom). rewrite HL in Hroom.
  exists ob, h, lc', wb'. split; [exact E'|]. split; [|split; [|exact T]].
  - constructor; cbn [set_chars bm_chars bm_patterns ptb_words ptb_buf ptb_allocated pt_words pt_buf pt_allocated ptb_next pt_next]; auto.
    + eapply Forall2_prel_kept; eassumption.
    + destruct (ptb_next pb), (pt_next pv); auto. eapply prel_kept; eassumption.
  - constructor; cbn [set_chars bm_chars bm_patterns bm_conditions pt_words pt_buf pt_allocated]; auto; try apply kept_refl.
    apply upto_refl. apply S2.
Qed.

(** After some more reborrows of words *)
Lemma psim_more mem pb pv L lc vc vp h lc' : psim mem pb pv L lc vc vp -> more (bm_chars mem) lc (v_addr vc) h lc' ->
  psim (set_chars mem h) pb pv L lc' vc vp /\ pext mem pv L lc (set_chars mem h) pv L lc' vc vp.
Proof.
  intros [S1 S2 S3 S4 S5 S6 S7] (U & C & B).
  assert (W : wsim h (ptb_words pb) (pt_words pv) lc' vc) by (eapply wsim_under; eassumption).
  pose proof (wsim_length _ _ _ _ _ W) as HL. pose proof W as (_ & _ & _ & _ & Hroom). rewrite HL in Hroom.
  assert (K : kept (w_allocated (pt_words pv)) lc lc') by (apply kept_chg, under_ext; exact C).
  split.
  - constructor; cbn [set_chars bm_chars bm_patterns]; auto.
    + eapply Forall2_prel_kept; [exact K|lia|exact Hroom|exact S6].
    + destruct (ptb_next pb), (pt_next pv); auto. eapply prel_kept; [exact K|lia|exact Hroom|exact S7].
  - constructor; cbn [set_chars bm_chars bm_patterns bm_conditions]; auto; try apply kept_refl. apply upto_refl. apply S2.
Qed.

(** After [patterns_alloc] *)
Lemma psim_alloc mem pb pv L lc vc vp x y pv' : psim mem pb pv L lc vc vp ->
  prel lc (v_addr vc) (w_allocated (pt_words pv)) x y ->
  patterns_alloc pv y = Ok pv' ->
  exists mem' pb' L', patterns_alloc_b mem pb x = Ok (mem', pb') /\ psim mem' pb' pv' L' lc vc vp /\ pext mem pv L lc mem' pv' L' lc vc vp.
Proof.
  intros [S1 S2 S3 S4 S5 S6 S7] R E. unfold patterns_alloc in E. apply bind_ok in E as (b & E & E2). injection E2 as <-.
  unfold set_idx in E. destruct (Nat.ltb_spec (pt_allocated pv) (length (pt_buf pv))) as [H|]; [|discriminate]. injection E as <-.
  unfold patterns_alloc_b. rewrite S4. destruct (hold_write _ _ _ _ _ _ (pt_allocated pv) x S2) as (h & L' & E & U & H' & V & K); [lia|].
  rewrite E. cbn [bind]. eexists _, _, L'. split; [reflexivity|].
  assert (LL : length L' = length L) by apply K. split.
  - constructor; cbn [set_patterns bm_chars bm_patterns ptb_words ptb_buf ptb_allocated pt_words pt_buf pt_allocated ptb_next pt_next]; auto.
    + rewrite length_upd. congruence.
    + lia.
    + rewrite V. rewrite !MemoryProofs.firstn_upd_snoc by (rewrite ?map_length; lia).
      apply Forall2_app; [exact S6|]. constructor; [exact R|constructor].
  - constructor; cbn [set_patterns bm_chars bm_patterns bm_conditions pt_words pt_buf pt_allocated]; auto; try apply kept_refl.
    + apply upto_refl. apply S1.
    + lia.
Qed.

Lemma patterns_next_loop_b_ok fuel : forall mem pb pv L lc vc vp b pv', psim mem pb pv L lc vc vp ->
  patterns_next_loop fuel pv b = Ok pv' ->
  exists mem' pb' L' lc', patterns_next_loop_b fuel mem pb b = Ok (mem', pb') /\ psim mem' pb' pv' L' lc' vc vp
    /\ pext mem pv L lc mem' pv' L' lc' vc vp.
Proof.
  induction fuel as [|fuel IH]; intros mem pb pv L lc vc vp b pv' S E; [discriminate|]. cbn [patterns_next_loop patterns_next_loop_b] in *.
  apply bind_ok in E as ([o w'] & E1 & E).
  destruct (psim_words _ _ _ _ _ _ _ _ _ S E1) as (ob & h & lc1 & wb' & E1' & S1 & X1 & T). rewrite E1'. cbn [bind].
  destruct o as [t|], ob as [r|]; try contradiction.
  2:{ injection E as <-. eauto 10. }
  assert (B1 : buf h (v_addr vc) lc1) by apply S1.
  rewrite (read_ok _ _ _ _ _ _ _ B1 T). cbn [bind].
  destruct (negb (is_or_separator t)).
  2:{ destruct (IH _ _ _ _ _ _ _ _ _ S1 E) as (mem' & pb' & L' & lc' & E2 & S2 & X2). exists mem', pb', L', lc'. split; [exact E2|].
      split; [exact S2|]. eapply pext_trans; eassumption. }
  apply bind_ok in E as (om & Ep & E). destruct (pattern_parse_b_ok _ _ _ _ _ _ _ B1 T Ep) as (om' & h2 & lc2 & Ep' & M & R). rewrite Ep'. cbn [bind].
  destruct (psim_more _ _ _ _ _ _ _ _ _ S1 M) as [S2 X2]. change (set_chars (set_chars mem h) h2) with (set_chars mem h2) in *.
  pose proof (pext_trans _ _ _ _ _ _ _ _ _ _ _ _ _ _ X1 X2) as X.
  destruct om as [p|], om' as [x|]; try contradiction.
  2:{ destruct (IH _ _ _ _ _ _ _ _ _ S2 E) as (mem' & pb' & L' & lc' & E2 & S3 & X3). exists mem', pb', L', lc'. split; [exact E2|].
      split; [exact S3|]. eapply pext_trans; eassumption. }
  destruct b.
  - injection E as <-. eexists _, _, L, lc2. split; [reflexivity|]. split.
    + destruct S2. constructor; auto.
    + destruct X. constructor; auto.
  - apply bind_ok in E as (pv1 & Ea & E).
    destruct (psim_alloc _ _ _ _ _ _ _ x p pv1 S2 R Ea) as (mem1 & pb1 & L1 & Ea' & S3 & X3). rewrite Ea'. cbn [bind].
    destruct (IH _ _ _ _ _ _ _ _ _ S3 E) as (mem' & pb' & L' & lc' & E2 & S4 & X4). exists mem', pb', L', lc'. split; [exact E2|]. split; [exact S4|].
    eapply pext_trans; [exact X|]. eapply pext_trans; eassumption.
Qed.

(** The conditions of the two models *)
Definition crel (l : cells char) (a n : nat) (L : cells pattern_b) (b k : nat) (r : bref) (ps : list pattern) : Prop :=
  exists xs, pts L b k r xs /\ Forall2 (prel l a n) xs ps.

Lemma crel_kept l l' a n n' L L' b k k' r ps : kept n l l' -> n <= n' -> n' <= length l' ->
  kept k L L' -> k <= k' -> k' <= length L' -> crel l a n L b k r ps -> crel l' a n' L' b k' r ps.
Proof.
  intros K H1 H2 K' H3 H4 (xs & P & F). exists xs. split; [eapply pts_kept; eassumption|eapply Forall2_prel_kept; eassumption].
Qed.

Lemma crel_read mem l a n L b k r ps : buf (bm_chars mem) a l -> buf (bm_patterns mem) b L ->
  crel l a n L b k r ps -> read_condition_b mem r = Ok (ps, mem).
Proof.
  intros A1 A2 (xs & P & F). unfold read_condition_b. rewrite (read_ok _ _ _ _ _ _ _ A2 P). cbn [bind]. rewrite set_patterns_same.
  clear P. induction F as [|x p xs ps R F IH]; [reflexivity|]. cbn [read_all_b].
  rewrite (prel_read _ _ _ _ _ _ A1 R). cbn [bind]. rewrite IH. reflexivity.
Qed.

Lemma patterns_next_b_ok mem pb pv L lc vc vp o pv' : psim mem pb pv L lc vc vp -> patterns_next pv = Ok (o, pv') ->
  exists ob mem' pb' L' lc', patterns_next_b mem pb = Ok (ob, mem', pb')
    /\ psim mem' pb' pv' L' lc' vc vp /\ pext mem pv L lc mem' pv' L' lc' vc vp
    /\ match ob, o with
       | None, None => True
       | Some r, Some ps => crel lc' (v_addr vc) (w_allocated (pt_words pv')) L' (v_addr vp) (pt_allocated pv') r ps
       | _, _ => False
       end.
Proof.
  intros S E. unfold patterns_next in E. unfold patterns_next_b. apply bind_ok in E as ([pv1 b] & E1 & E).
  assert (S1 : exists mem1 pb1 L1,
    match ptb_next pb with
    | Some first_pattern =>
        let* '(mem, p) := patterns_alloc_b mem (MkPatternsB (ptb_buf pb) (ptb_allocated pb) (ptb_words pb) None) first_pattern in
        Ok (mem, p, true)
    | None => Ok (mem, pb, false)
    end = Ok (mem1, pb1, b) /\ psim mem1 pb1 pv1 L1 lc vc vp /\ pext mem pv L lc mem1 pv1 L1 lc vc vp).
  { pose proof (si_next _ _ _ _ _ _ _ S) as N. destruct (ptb_next pb) as [x|] eqn:Ex, (pt_next pv) as [y|] eqn:Ey; try contradiction.
    - apply bind_ok in E1 as (pv2 & Ea & E1). injection E1 as <- <-.
      assert (S0 : psim mem (MkPatternsB (ptb_buf pb) (ptb_allocated pb) (ptb_words pb) None) (MkPatterns (pt_buf pv) (pt_allocated pv) (pt_words pv) None) L lc vc vp)
        by (destruct S; constructor; try exact I; auto).
      destruct (psim_alloc _ _ _ _ _ _ _ x y pv2 S0 N Ea) as (mem1 & pb1 & L1 & Ea' & S1 & X1). rewrite Ea'. cbn [bind].
      eexists _, _, _. split; [reflexivity|]. split; [exact S1|]. destruct X1. constructor; auto.
    - injection E1 as <- <-. eexists _, _, _. split; [reflexivity|]. split; [exact S|]. eapply pext_refl. exact S. }
  destruct S1 as (mem1 & pb1 & L1 & E1' & S1 & X1). rewrite E1'. cbn [bind].
  apply bind_ok in E as (pv2 & E2 & E).
  assert (Es : wb_s (ptb_words pb1) = w_s (pt_words pv1)) by apply S1. rewrite Es.
  destruct (patterns_next_loop_b_ok _ _ _ _ _ _ _ _ _ _ S1 E2) as (mem2 & pb2 & L2 & lc2 & E2' & S2 & X2). rewrite E2'. cbn [bind].
  pose proof (pext_trans _ _ _ _ _ _ _ _ _ _ _ _ _ _ X1 X2) as X.
  rewrite (si_alloc _ _ _ _ _ _ _ S2), (si_alloc _ _ _ _ _ _ _ S).
  destruct (pt_allocated pv2 =? pt_allocated pv).
  - injection E as <- <-. exists None, mem2, pb2, L2, lc2. split; [reflexivity|]. split; [exact S2|]. split; [exact X|exact I].
  - apply bind_ok in E as (ps & Ep & E). injection E as <- <-.
    unfold slice in Ep. destruct ((pt_allocated pv <=? pt_allocated pv2) && (pt_allocated pv2 <=? length (pt_buf pv2))) eqn:Eb; [|discriminate].
    apply andb_prop in Eb as [Eb1 Eb2]. apply Nat.leb_le in Eb1. apply Nat.leb_le in Eb2. injection Ep as <-.
    pose proof (si_hold _ _ _ _ _ _ _ S2) as (B2 & W2 & F2).
    destruct (subslice_whole _ _ _ _ _ (pt_allocated pv) (pt_allocated pv2) B2 W2 Eb1) as (h3 & L3 & r3 & E3 & U3 & C3 & P3 & _).
    { rewrite (si_length _ _ _ _ _ _ _ S2). exact Eb2. }
    rewrite E3. cbn [bind].
    assert (K : kept (pt_allocated pv2) L2 L3) by (apply kept_chg, under_ext; exact C3).
    eexists (Some r3), _, pb2, L3, lc2. split; [reflexivity|]. split; [|split].
    + destruct S2. constructor; cbn [set_patterns bm_chars bm_patterns]; auto.
      * eapply hold_under; eassumption.
      * rewrite (chg_length _ _ _ _ C3). assumption.
      * rewrite (chg_length _ _ _ _ C3). assumption.
      * rewrite (chg_values _ _ _ _ C3). assumption.
    + eapply pext_trans; [exact X|]. constructor; cbn [set_patterns bm_chars bm_patterns bm_conditions]; auto; try apply kept_refl.
      apply upto_refl. apply S2.
    + eexists. split; [exact P3|]. apply MemoryProofs.Forall2_firstn_skipn. apply S2.
Qed.

(** ** The conditions and the query *)

(** The buffer of conditions *)
Record csim (mem : bmemory) (pv : patterns) (L : cells pattern_b) (lc : cells char) (vc vp vd : bvec)
    (D : cells bref) (conds : list condition) (num : nat) : Prop := MkCsim {
  cs_buf : buf (bm_conditions mem) (v_addr vd) D;
  cs_base : base (v_tag vd) D;
  cs_length : length D = length conds;
  cs_room : num <= length D;
  cs_used : Forall2 (crel lc (v_addr vc) (w_allocated (pt_words pv)) L (v_addr vp) (pt_allocated pv))
              (firstn num (map fst D)) (firstn num conds)
}.

Lemma csim_pext mem pb pv L lc mem' pv' L' lc' vc vp vd D conds num :
  psim mem' pb pv' L' lc' vc vp -> pext mem pv L lc mem' pv' L' lc' vc vp -> csim mem pv L lc vc vp vd D conds num -> csim mem' pv' L' lc' vc vp vd D conds num.
Proof.
  intros S X [C1 C2 C3 C4 C5]. constructor; auto.
  - rewrite (ex_conditions _ _ _ _ _ _ _ _ _ _ X). exact C1.
  - eapply MemoryProofs.Forall2_imp; [|exact C5]. intros a b R.
    pose proof (si_words _ _ _ _ _ _ _ S) as W. pose proof (wsim_length _ _ _ _ _ W) as HL. pose proof W as (_ & _ & _ & _ & Hr). rewrite HL in Hr.
    eapply crel_kept; [apply X|apply X|exact Hr|apply X|apply X|apply S|exact R].
Qed.

Lemma parse_loop_b_ok fuel : forall mem pb pv L lc vc vp vd D conds num pv' conds' num',
  psim mem pb pv L lc vc vp -> csim mem pv L lc vc vp vd D conds num ->
  parse_loop fuel pv conds num = Ok (pv', conds', num') ->
  exists mem' pb' L' lc' D', parse_loop_b fuel mem pb vd num = Ok (mem', num')
    /\ psim mem' pb' pv' L' lc' vc vp /\ csim mem' pv' L' lc' vc vp vd D' conds' num'
    /\ upto (bm_chars mem) (bm_chars mem') (v_addr vc) lc'
    /\ upto (bm_patterns mem) (bm_patterns mem') (v_addr vp) L'
    /\ upto (bm_conditions mem) (bm_conditions mem') (v_addr vd) D'.
Proof.
  induction fuel as [|fuel IH]; intros mem pb pv L lc vc vp vd D conds num pv' conds' num' S C E; [discriminate|]. cbn [parse_loop parse_loop_b] in *.
  apply bind_ok in E as ([o pv1] & E1 & E).
  destruct (patterns_next_b_ok _ _ _ _ _ _ _ _ _ S E1) as (ob & mem1 & pb1 & L1 & lc1 & E1' & S1 & X1 & R). rewrite E1'. cbn [bind].
  pose proof (csim_pext _ _ _ _ _ _ _ _ _ _ _ _ _ _ _ S1 X1 C) as C1.
  destruct o as [c|], ob as [r|]; try contradiction.
  - apply bind_ok in E as (conds1 & E2 & E). unfold set_idx in E2. destruct (Nat.ltb_spec num (length conds)) as [Hn|]; [|discriminate].
    injection E2 as <-. destruct C1 as [A1 A2 A3 A4 A5].
    destruct (vec_set_ok _ _ _ vd num r A1 A2) as (h & D1 & Es & Us & Vs & Fs); [lia|]. rewrite Es. cbn [bind].
    assert (LD : length D1 = length D) by (rewrite <- (map_length fst D1), Vs, length_upd; apply map_length).
    assert (S2 : psim (set_conditions mem1 h) pb1 pv1 L1 lc1 vc vp) by (destruct S1; constructor; auto).
    assert (C2 : csim (set_conditions mem1 h) pv1 L1 lc1 vc vp vd D1 (upd conds num c) (num + 1)).
    { constructor; cbn [set_conditions bm_conditions].
      - eapply upto_buf; eassumption.
      - exact Fs.
      - rewrite length_upd. congruence.
      - lia.
      - rewrite Vs, !MemoryProofs.firstn_upd_snoc by (rewrite ?map_length; lia). apply Forall2_app; [exact A5|]. constructor; [exact R|constructor]. }
    destruct (IH _ _ _ _ _ _ _ _ _ _ _ _ _ _ S2 C2 E) as (mem' & pb' & L' & lc' & D' & E3 & S3 & C3 & M1 & M2 & M3).
    exists mem', pb', L', lc', D'. split; [exact E3|]. split; [exact S3|]. split; [exact C3|]. cbn [set_conditions bm_chars bm_patterns bm_conditions] in *.
    split; [|split].
    + eapply upto_trans; [apply X1|exact M1].
    + eapply upto_trans; [apply X1|exact M2].
    + rewrite <- (ex_conditions _ _ _ _ _ _ _ _ _ _ X1). eapply upto_trans; eassumption.
  - injection E as <- <- <-. exists mem1, pb1, L1, lc1, D. split; [reflexivity|]. split; [exact S1|]. split; [exact C1|].
    split; [apply X1|]. split; [apply X1|].
    rewrite (ex_conditions _ _ _ _ _ _ _ _ _ _ X1). apply upto_refl. apply C.
Qed.

(** What a query reads as is determined by the three buffers of its parser: *)
Definition reads (l : cells char) (a : nat) (L : cells pattern_b) (b : nat) (D : cells bref) (d : nat) (qb : query_b) (q : query) : Prop :=
  match qb, q with
  | NotExtendedB pb, NotExtended p => prel l a (length l) pb p
  | ExtendedB r, Extended cs =>
      exists rs, pts D d (length D) r rs /\ Forall2 (crel l a (length l) L b (length L)) rs cs
  | _, _ => False
  end.

Lemma reads_read mem l a L b D d qb q : buf (bm_chars mem) a l -> buf (bm_patterns mem) b L -> buf (bm_conditions mem) d D ->
  reads l a L b D d qb q -> read_query_b mem qb = Ok (q, mem).
Proof.
  intros A1 A2 A3. destruct qb as [r|pb], q as [cs|p]; cbn [reads read_query_b]; try contradiction.
  - intros (rs & P & F). rewrite (read_ok _ _ _ _ _ _ _ A3 P). cbn [bind]. rewrite set_conditions_same.
    assert (G : read_all_b read_condition_b mem rs = Ok (cs, mem)).
    { clear P. induction F as [|x p xs ps R F IH]; [reflexivity|]. cbn [read_all_b]. rewrite (crel_read _ _ _ _ _ _ _ _ _ A1 A2 R).
      cbn [bind]. rewrite IH. reflexivity. }
    rewrite G. reflexivity.
  - intros R. rewrite (prel_read _ _ _ _ _ _ A1 R). reflexivity.
Qed.

(** Nobody has lost a right to read *)
Lemma reads_chg l l' a L L' b D D' d qb q : chg ext l l' -> chg ext L L' -> chg ext D D' ->
  reads l a L b D d qb q -> reads l' a L' b D' d qb q.
Proof.
  intros C1 C2 C3.
  assert (R1 : forall pb p, prel l a (length l) pb p -> prel l' a (length l') pb p).
  { intros pb p. apply prel_kept; [apply kept_chg; exact C1| |lia]. rewrite (chg_length _ _ _ _ C1). lia. }
  destruct qb as [r|pb], q as [cs|p]; cbn [reads]; try contradiction; [|apply R1].
  intros (rs & P & F). exists rs. split.
  - eapply pts_kept; [apply kept_chg; exact C3| |reflexivity|exact P]. rewrite (chg_length _ _ _ _ C3). lia.
  - eapply MemoryProofs.Forall2_imp; [|exact F]. intros x y (xs & Px & Fx). exists xs. split.
    + eapply pts_kept; [apply kept_chg; exact C2| |reflexivity|exact Px]. rewrite (chg_length _ _ _ _ C2). lia.
    + eapply MemoryProofs.Forall2_imp; [|exact Fx]. exact R1.
Qed.

Lemma new_extended_b_ok mem l a L b D d r rs cs q :
  buf (bm_patterns mem) b L -> buf (bm_conditions mem) d D ->
  pts D d (length D) r rs -> Forall2 (crel l a (length l) L b (length L)) rs cs ->
  new_extended cs = Ok q -> exists qb, new_extended_b mem r = Ok (qb, mem) /\ reads l a L b D d qb q.
Proof.
  intros A2 A3 P F E. unfold new_extended_b. rewrite (read_ok _ _ _ _ _ _ _ A3 P). cbn [bind]. rewrite set_conditions_same.
  assert (G : exists qb, Ok (ExtendedB r, mem) = Ok (qb, mem) /\ reads l a L b D d qb (Extended cs)).
  { eexists. split; [reflexivity|]. exists rs. auto. }
  unfold new_extended in E. destruct F as [|x c xs cs R F].
  - injection E as <-. exact G.
  - destruct F as [|x' c' xs cs R' F].
    2:{ injection E as <-. exact G. }
    destruct R as (ps & Pp & Fp). rewrite (read_ok _ _ _ _ _ _ _ A2 Pp). cbn [bind]. rewrite set_patterns_same.
    destruct Fp as [|y p ys ps' Ry Fp]; [discriminate|].
    destruct Fp as [|y' p' ys ps' Ry' Fp].
    2:{ injection E as <-. exact G. }
    assert (Em : pb_match_type y = p_match_type p) by (destruct Ry as [_ Ry]; congruence). rewrite Em.
    destruct (p_match_type p); injection E as <-; try exact G. eexists. split; [reflexivity|]. exact Ry.
Qed.

(** ** parse *)

(** The memory at the addresses of a parser *)
Definition live (mem : bmemory) (p : parser_b) (l : cells char) (L : cells pattern_b) (D : cells bref) : Prop :=
  (buf (bm_chars mem) (v_addr (pb_chars p)) l /\ base (v_tag (pb_chars p)) l)
  /\ (buf (bm_patterns mem) (v_addr (pb_patterns p)) L /\ base (v_tag (pb_patterns p)) L)
  /\ (buf (bm_conditions mem) (v_addr (pb_conditions p)) D /\ base (v_tag (pb_conditions p)) D).

(** Other parsers' buffers *)
Definition apart (p p' : parser_b) : Prop :=
  v_addr (pb_chars p) <> v_addr (pb_chars p') /\ v_addr (pb_patterns p) <> v_addr (pb_patterns p')
  /\ v_addr (pb_conditions p) <> v_addr (pb_conditions p').

Definition reads_of (p : parser_b) (l : cells char) (L : cells pattern_b) (D : cells bref) (qb : query_b) (q : query) : Prop :=
  reads l (v_addr (pb_chars p)) L (v_addr (pb_patterns p)) D (v_addr (pb_conditions p)) qb q.

Lemma prel_all l a n pb p : prel l a n pb p -> prel l a (length l) pb p.
Proof. intros [P F]. split; [eapply pts_all; exact P|exact F]. Qed.

Lemma crel_all l a n L b k r ps : crel l a n L b k r ps -> crel l a (length l) L b (length L) r ps.
Proof.
  intros (xs & P & F). exists xs. split; [eapply pts_all; exact P|]. eapply MemoryProofs.Forall2_imp; [|exact F]. intros ? ?. apply prel_all.
Qed.

Lemma grown A (l : list A) n d : (if length l <? n then grow l n d else l) = l ++ repeat d (n - length l).
Proof.
  unfold grow. destruct (Nat.ltb_spec (length l) n) as [H|H]; [reflexivity|]. replace (n - length l) with 0 by lia. symmetry. apply app_nil_r.
Qed.

Lemma grown_length A B (l : list A) (l' : list B) n d d' : length l = length l' ->
  length (l ++ repeat d (n - length l)) = length (l' ++ repeat d' (n - length l')).
Proof. intros E. rewrite !app_length, !repeat_length, E. reflexivity. Qed.

Lemma parse_b_ok g1 g2 g3 mem p l L D s : live mem p l L D ->
  exists qb p' mem' l' L' D', parse_b g1 g2 g3 mem p s = Ok (qb, p', mem') /\ live mem' p' l' L' D'
    /\ reads_of p' l' L' D' qb (query_of (parse_spec s))
    /\ length l' = Nat.max (length l) (byte_len s)
    /\ (forall r x X Y, apart r p -> live mem r x X Y -> live mem' r x X Y /\ apart r p')
    /\ (forall b m, b <> v_addr (pb_chars p) -> buf (bm_chars mem) b m -> buf (bm_chars mem') b m /\ b <> v_addr (pb_chars p')).
Proof.
  intros ((A1 & F1) & (A2 & F2) & (A3 & F3)).
  set (vp0 := MkParser (map fst l) (repeat default_pattern (length L)) (repeat (@nil pattern) (length D))).
  destruct (parse_correct vp0 s) as (ps' & E & _ & _ & _ & Elen). unfold parse in E. unfold parse_b. cbn [vp0 ps_chars ps_patterns ps_conditions] in E, Elen.
  remember (length (encode s) / 2 + 1) as n2 eqn:En2.
  destruct (vec_grow_ok _ g1 _ _ _ (length (encode s)) 0%N A1 F1) as (vc & hc & lc & G1 & B1 & K1 & V1 & N1 & O1). rewrite G1. cbn [bind].
  destruct (vec_grow_ok _ g2 _ _ _ n2 empty_bref A3 F3) as (vd & hd & ld & G2 & B2 & K2 & V2 & N2 & O2). rewrite G2. cbn [bind].
  destruct (vec_grow_ok _ g3 _ _ _ n2 default_pattern_b A2 F2) as (vp & hp & lp & G3 & B3 & K3 & V3 & N3 & O3). rewrite G3. cbn [bind].
  destruct (vec_mut_ok _ _ _ _ B3 K3) as (hp1 & lp1 & rp & M3 & U3 & W3 & Vm3 & Km3). rewrite M3. cbn [bind].
  destruct (vec_mut_ok _ _ _ _ B1 K1) as (hc1 & lc1 & rc & M1 & U1 & W1 & Vm1 & Km1). rewrite M1. cbn [bind].
  apply bind_ok in E as (pv & E1 & E). unfold patterns_new, words_new in E1. unfold patterns_new_b, words_new_b.
  apply bind_ok in E1 as (w & E1 & E1'). apply bind_ok in E1 as (s1 & E1 & E1''). injection E1'' as <-. injection E1' as <-.
  rewrite E1. cbn [bind]. apply bind_ok in E as ([[pv' conds'] num'] & E2 & E).
  apply bind_ok in E as (cs & E3 & E). apply bind_ok in E as (q & E4 & E). injection E as Eq <-. subst q. cbn [ps_chars] in Elen.
  rewrite !grown in E2. rewrite map_length in E2.
  match type of E2 with parse_loop _ ?v ?c _ = _ => set (pv := v) in *; set (conds := c) in * end.
  assert (S0 : psim (MkBMem hc1 hp1 hd) (MkPatternsB rp 0 (MkWordsB rc 0 s1) None) pv lp1 lc1 vc vp).
  { constructor; cbn [pv bm_chars bm_patterns ptb_words ptb_buf ptb_allocated pt_words pt_buf pt_allocated ptb_next pt_next]; auto.
    - split; [split; [eapply upto_buf; eassumption|split; assumption]|]. cbn [wb_buf wb_allocated wb_s w_buf w_allocated w_s].
      split; [rewrite Vm1, V1; reflexivity|]. split; [reflexivity|]. split; [reflexivity|lia].
    - split; [eapply upto_buf; eassumption|split; assumption].
    - rewrite <- (map_length fst lp1), Vm3, V3, !app_length, !repeat_length, map_length. reflexivity.
    - lia.
    - constructor. }
  assert (C0 : csim (MkBMem hc1 hp1 hd) pv lp1 lc1 vc vp vd ld conds 0).
  { constructor; cbn [bm_conditions]; auto.
    - unfold conds. rewrite <- (map_length fst ld), V2, !app_length, !repeat_length, map_length. reflexivity.
    - lia.
    - constructor. }
  destruct (parse_loop_b_ok _ _ _ _ _ _ _ _ _ _ _ _ _ _ _ S0 C0 E2) as (mem' & pb' & L' & lc' & D' & E5 & S5 & C5 & M1' & M2' & M3').
  rewrite E5. cbn [bind bm_chars bm_patterns bm_conditions] in *.
  unfold slice_to in E3. destruct (Nat.leb_spec num' (length conds')) as [Hn|]; [|discriminate].
  injection E3 as <-. destruct C5 as [Cb Cf Cl Cr Cu].
  destruct (vec_slice_ok _ _ _ _ 0 num' Cb Cf) as (hd2 & D2 & rd2 & E6 & U6 & C6 & F6 & P6 & _); [lia|lia|]. rewrite E6. cbn [bind].
  rewrite Nat.sub_0_r in P6. cbn [skipn] in P6.
  pose proof (si_words _ _ _ _ _ _ _ S5) as ((Wb & _ & Wf) & Wv & _).
  pose proof (si_hold _ _ _ _ _ _ _ S5) as (Pb & _ & Pf).
  pose proof (upto_buf _ _ _ _ _ _ Cb U6) as Db.
  destruct (new_extended_b_ok (set_conditions mem' hd2) lc' (v_addr vc) L' (v_addr vp) D2 (v_addr vd) rd2 (firstn num' (map fst D')) (firstn num' conds') (query_of (parse_spec s))) as (qb & E7 & R).
  { exact Pb. }
  { exact Db. }
  { exact P6. }
  { eapply MemoryProofs.Forall2_imp; [|exact Cu]. intros ? ?. apply crel_all. }
  { exact E4. }
  rewrite E7. cbn [bind]. eexists qb, _, _, lc', L', D2. split; [reflexivity|].
  split; [split; [split; assumption|split; split; assumption]|]. split; [exact R|]. split; [|].
  { rewrite <- (map_length fst lc'), Wv, Elen, map_length. reflexivity. }
  assert (Fc : forall b m, b <> v_addr (pb_chars p) -> buf (bm_chars mem) b m -> buf (bm_chars mem') b m /\ b <> v_addr vc).
  { intros b m Hb J. pose proof (buf_lt _ _ _ _ J) as Lb. assert (X : b <> v_addr vc) by (destruct N1; lia). split; [|exact X].
    eapply upto_other; [exact X|exact M1'|]. eapply upto_other; [exact X|exact U1|]. apply O1; assumption. }
  split; [|exact Fc].
  intros r x X Y (Q1 & Q2 & Q3) ((J1 & J1') & (J2 & J2') & (J3 & J3')).
  pose proof (buf_lt _ _ _ _ J1) as L1. pose proof (buf_lt _ _ _ _ J2) as L2. pose proof (buf_lt _ _ _ _ J3) as L3.
  assert (X1 : v_addr (pb_chars r) <> v_addr vc) by (destruct N1; lia).
  assert (X2 : v_addr (pb_patterns r) <> v_addr vp) by (destruct N3; lia).
  assert (X3 : v_addr (pb_conditions r) <> v_addr vd) by (destruct N2; lia).
  split; [|split; [exact X1|split; [exact X2|exact X3]]]. cbn [set_conditions bm_chars bm_patterns bm_conditions].
  split; [|split]; (split; [|assumption]); cbn [set_conditions bm_chars bm_patterns bm_conditions].
  - eapply upto_other; [exact X1|exact M1'|]. eapply upto_other; [exact X1|exact U1|]. apply O1; assumption.
  - eapply upto_other; [exact X2|exact M2'|]. eapply upto_other; [exact X2|exact U3|]. apply O3; assumption.
  - eapply upto_other; [exact X3|exact U6|]. eapply upto_other; [exact X3|exact M3'|]. apply O2; assumption.
Qed.

(** ** parse_not_extended *)

Lemma fill_chars_b_ok s : forall h v lc n, buf h (v_addr v) lc -> base (v_tag v) lc ->
  match words_alloc (map fst lc) n s with
  | Ok (l', n') => exists h' lc', fill_chars_b h v n s = Ok (h', n') /\ upto h h' (v_addr v) lc' /\ base (v_tag v) lc' /\ map fst lc' = l'
  | _ => fill_chars_b h v n s = Panic
  end.
Proof.
  induction s as [|c s IH]; intros h v lc n B F; cbn [words_alloc fill_chars_b].
  - exists h, lc. split; [reflexivity|]. split; [apply upto_refl; exact B|]. auto.
  - unfold set_idx. destruct (Nat.ltb_spec n (length (map fst lc))) as [Hn|Hn]; cbn [bind]; rewrite map_length in Hn.
    + destruct (vec_set_ok _ h lc v n c B F Hn) as (h1 & lc1 & E1 & U1 & V1 & F1). rewrite E1. cbn [bind]. rewrite <- V1.
      specialize (IH h1 v lc1 (n + 1) (upto_buf _ _ _ _ _ _ B U1) F1).
      destruct (words_alloc (map fst lc1) (n + 1) s) as [[l' n']| |]; try exact IH.
      destruct IH as (h2 & lc2 & E2 & U2 & F2 & V2). exists h2, lc2. split; [exact E2|]. split; [eapply upto_trans; eassumption|]. auto.
    + unfold vec_set. destruct (vec_mut_ok _ h lc v B F) as (h1 & lc1 & r & E1 & U1 & (W1 & W2 & W3 & W4) & V1 & F1). rewrite E1. cbn [bind].
      assert (L1 : length lc1 = length lc) by (rewrite <- (map_length fst lc1), V1; apply map_length).
      unfold reborrow_mut. destruct (Nat.leb_spec (n + 1) (b_len r)) as [H'|H']; [lia|]. reflexivity.
Qed.

Lemma parse_not_extended_b_ok mem p l L D s : live mem p l L D ->
  if length s <=? length l then
    exists qb mem' l', parse_not_extended_b mem p s = Ok (qb, mem') /\ live mem' p l' L D
      /\ reads_of p l' L D qb (new_not_extended s)
      /\ length l' = length l
      /\ (forall r x X Y, apart r p -> live mem r x X Y -> live mem' r x X Y)
      /\ (forall b m, b <> v_addr (pb_chars p) -> buf (bm_chars mem) b m -> buf (bm_chars mem') b m)
  else parse_not_extended_b mem p s = Panic.
Proof.
  intros ((A1 & F1) & (A2 & F2) & (A3 & F3)). unfold parse_not_extended_b. pose proof (fill_chars_b_ok s _ _ _ 0 A1 F1) as G.
  destruct (Nat.leb_spec (length s) (length l)) as [H|H].
  - rewrite words_alloc_spec in G by (rewrite map_length; lia). destruct G as (h1 & lc1 & E1 & U1 & K1 & V1). rewrite E1. cbn [bind Nat.add].
    assert (L1 : length lc1 = length l) by (rewrite <- (map_length fst lc1), V1, put_length; rewrite map_length; lia).
    destruct (vec_slice_ok _ _ _ _ 0 (length s) (upto_buf _ _ _ _ _ _ A1 U1) K1) as (h2 & lc2 & r & E2 & U2 & C2 & K2 & P2 & _); [lia|lia|].
    rewrite E2. cbn [bind]. rewrite Nat.sub_0_r in P2. cbn [skipn] in P2.
    rewrite V1 in P2. pose proof (firstn_put_all _ (map fst l) 0 s) as Fp. cbn [Nat.add] in Fp. rewrite Fp in P2 by (rewrite map_length; lia).
    pose proof (upto_trans _ _ _ _ _ _ _ U1 U2) as U. pose proof (upto_buf _ _ _ _ _ _ A1 U) as B2.
    unfold new_not_extended_b. destruct (mk_pattern_b_ok _ _ _ _ _ _ Fuzzy false B2 P2) as (pb & E & R). rewrite E. cbn [bind].
    eexists _, _, lc2. split; [reflexivity|]. cbn [set_chars]. split; [split; [split; assumption|split; split; assumption]|]. split; [exact R|].
    split; [rewrite (chg_length _ _ _ _ C2); exact L1|].
    split; [|intros b m Hb J; eapply upto_other; eassumption].
    intros r' x X Y (Q1 & Q2 & Q3) ((J1 & J1') & J2 & J3). split; [|split; assumption]. split; [|exact J1']. eapply upto_other; eassumption.
  - rewrite words_alloc_panic in G by (rewrite map_length; lia). rewrite G. reflexivity.
Qed.

(** A caught panic leaves the parser alive, its buffer as long as before *)
Lemma fill_chars_left_b_ok s : forall h v lc n, buf h (v_addr v) lc -> base (v_tag v) lc ->
  exists lc', upto h (fill_chars_left_b h v n s) (v_addr v) lc' /\ base (v_tag v) lc' /\ map fst lc' = words_alloc_left (map fst lc) n s.
Proof.
  induction s as [|c s IH]; intros h v lc n B F; cbn [words_alloc_left fill_chars_left_b].
  - exists lc. split; [apply upto_refl; exact B|]. auto.
  - unfold set_idx. destruct (Nat.ltb_spec n (length (map fst lc))) as [Hn|Hn]; rewrite map_length in Hn.
    + destruct (vec_set_ok _ h lc v n c B F Hn) as (h1 & lc1 & E1 & U1 & V1 & F1). rewrite E1, <- V1.
      destruct (IH h1 v lc1 (n + 1) (upto_buf _ _ _ _ _ _ B U1) F1) as (lc2 & U2 & F2 & V2). exists lc2.
      split; [eapply upto_trans; eassumption|]. auto.
    + unfold vec_set. destruct (vec_mut_ok _ h lc v B F) as (h1 & lc1 & r & E1 & U1 & (W1 & W2 & W3 & W4) & V1 & F1). rewrite E1. cbn [bind].
      assert (L1 : length lc1 = length lc) by (rewrite <- (map_length fst lc1), V1; apply map_length).
      unfold reborrow_mut. destruct (Nat.leb_spec (n + 1) (b_len r)) as [H'|H']; [lia|]. exists lc1. auto.
Qed.

Lemma parse_not_extended_caught_b_ok mem p l L D s : live mem p l L D ->
  exists l', live (parse_not_extended_caught_b mem p s) p l' L D /\ length l' = length l
    /\ (forall r x X Y, apart r p -> live mem r x X Y -> live (parse_not_extended_caught_b mem p s) r x X Y)
    /\ (forall b m, b <> v_addr (pb_chars p) -> buf (bm_chars mem) b m -> buf (bm_chars (parse_not_extended_caught_b mem p s)) b m).
Proof.
  intros ((A1 & F1) & (A2 & F2) & (A3 & F3)). destruct (fill_chars_left_b_ok s _ _ _ 0 A1 F1) as (l1 & U1 & K1 & V1).
  exists l1. unfold parse_not_extended_caught_b. cbn [set_chars bm_chars].
  split; [split; [split; [exact (upto_buf _ _ _ _ _ _ A1 U1)|exact K1]|split; split; assumption]|].
  split; [rewrite <- (map_length fst l1), V1, MemoryProofs.words_alloc_left_size; apply map_length|].
  split; [|intros b m Hb J; eapply upto_other; eassumption].
  intros r' x X Y (Q1 & Q2 & Q3) ((J1 & J1') & J2 & J3). split; [|split; assumption]. split; [|exact J1']. eapply upto_other; eassumption.
Qed.

(** ** Programs *)

(** What a query should read as *)
Definition wanted (extended : bool) (s : str) : query :=
  if extended then query_of (parse_spec s) else new_not_extended s.

Record inv (w : bworld) : Prop := MkInv {
  iv_live : forall i p, nth_error (bw_parsers w) i = Some (Some p) ->
    exists l L D, live (bw_mem w) p l L D /\ 64 <= length l;
  iv_apart : forall i j p p', i <> j -> nth_error (bw_parsers w) i = Some (Some p) ->
    nth_error (bw_parsers w) j = Some (Some p') -> apart p p';
  iv_loans : forall b, In b (bw_loans w) -> exists p l L D,
    nth_error (bw_parsers w) (bl_parser b) = Some (Some p) /\ live (bw_mem w) p l L D
    /\ reads_of p l L D (bl_query b) (wanted (bl_extended b) (bl_string b))
}.

Lemma apart_sym p p' : apart p p' -> apart p' p.
Proof. intros (H1 & H2 & H3). split; [|split]; auto. Qed.

(** A new parser, with buffers of its own *)
Lemma inv_add mem mem' ps ls p' l L D : inv (MkBWorld mem ps ls) -> live mem' p' l L D -> 64 <= length l ->
  (forall i r x X Y, nth_error ps i = Some (Some r) -> live mem r x X Y -> apart r p' /\
     exists x' X' Y', live mem' r x' X' Y' /\ chg ext x x' /\ chg ext X X' /\ chg ext Y Y') ->
  inv (MkBWorld mem' (ps ++ [Some p']) ls).
Proof.
  intros [I1 I2 I3] K' Hl F. cbn [bw_mem bw_parsers bw_loans] in *. constructor; cbn [bw_mem bw_parsers bw_loans].
  - intros i p H. apply MemoryProofs.nth_error_snoc in H as [H|[_ [= <-]]].
    + destruct (I1 _ _ H) as (x & X & Y & K & Hx). destruct (F _ _ _ _ _ H K) as (_ & x' & X' & Y' & Kx & C & _). exists x', X', Y'. split; [exact Kx|].
      rewrite (chg_length _ _ _ _ C). exact Hx.
    + exists l, L, D. auto.
  - intros i j p q Hij H H'. apply MemoryProofs.nth_error_snoc in H as [H|[-> [= <-]]]; apply MemoryProofs.nth_error_snoc in H' as [H'|[-> [= <-]]].
    + eapply I2; eassumption.
    + destruct (I1 _ _ H) as (x & X & Y & K & _). eapply F; eassumption.
    + destruct (I1 _ _ H') as (x & X & Y & K & _). apply apart_sym. eapply F; eassumption.
    + congruence.
  - intros b Hb. destruct (I3 _ Hb) as (p & x & X & Y & H & K & R). destruct (F _ _ _ _ _ H K) as (_ & x' & X' & Y' & Kx & C1 & C2 & C3).
    exists p, x', X', Y'. split; [|split; [exact Kx|eapply reads_chg; eassumption]].
    rewrite nth_error_app1; [exact H|]. apply nth_error_Some. congruence.
Qed.

Lemma in_other_bloans i ls b : In b (other_bloans i ls) <-> In b ls /\ bl_parser b <> i.
Proof.
  unfold other_bloans. rewrite filter_In. destruct (Nat.eqb_spec (bl_parser b) i); cbn [negb]; intuition congruence.
Qed.

(** A step which works on parser [i] only *)
Lemma inv_at mem ps ls i p o mem' ls' : inv (MkBWorld mem ps ls) -> nth_error ps i = Some (Some p) ->
  (forall r x X Y, apart r p -> live mem r x X Y -> live mem' r x X Y /\ forall p', o = Some p' -> apart r p') ->
  (forall p', o = Some p' -> exists l L D, live mem' p' l L D /\ 64 <= length l) ->
  (forall b, In b ls' -> (In b ls /\ bl_parser b <> i) \/
     (bl_parser b = i /\ exists p' l L D, o = Some p' /\ live mem' p' l L D
        /\ reads_of p' l L D (bl_query b) (wanted (bl_extended b) (bl_string b)))) ->
  inv (MkBWorld mem' (upd ps i o) ls').
Proof.
  intros [I1 I2 I3] Hi F Ho Hls. cbn [bw_mem bw_parsers bw_loans] in *.
  assert (Hlt : i < length ps) by (apply nth_error_Some; congruence).
  assert (N : forall j x, nth_error (upd ps i o) j = Some x -> (j = i /\ x = o) \/ (j <> i /\ nth_error ps j = Some x)).
  { intros j x H. rewrite nth_error_upd in H. destruct (Nat.eqb_spec j i) as [->|Hj]; [|auto].
    apply Nat.ltb_lt in Hlt. rewrite Hlt in H. cbn [andb] in H. left. split; [reflexivity|congruence]. }
  constructor; cbn [bw_mem bw_parsers bw_loans].
  - intros j q H. apply N in H as [[-> E]|[Hj H]]; [apply Ho; congruence|].
    destruct (I1 _ _ H) as (x & X & Y & K & Hx). exists x, X, Y. split; [|exact Hx]. apply F; [|exact K].
    eapply I2; eassumption.
  - intros j k q q' Hjk H H'. apply N in H as [[-> E]|[Hj H]]; apply N in H' as [[-> E']|[Hk H']].
    + contradiction.
    + destruct (I1 _ _ H') as (x & X & Y & K & _). apply apart_sym.
      destruct (F q' x X Y) as [_ G]; [eapply I2; eassumption|exact K|]. apply G. congruence.
    + destruct (I1 _ _ H) as (x & X & Y & K & _).
      destruct (F q x X Y) as [_ G]; [eapply I2; eassumption|exact K|]. apply G. congruence.
    + exact (I2 _ _ _ _ Hjk H H').
  - intros b Hb. destruct (Hls _ Hb) as [[Hb' Hn]|[Hn (p' & l & L & D & -> & K & R)]].
    + destruct (I3 _ Hb') as (q & x & X & Y & H & K & R). exists q, x, X, Y. split; [|split; [|exact R]].
      * rewrite nth_error_upd. destruct (Nat.eqb_spec (bl_parser b) i); [congruence|exact H].
      * apply F; [|exact K]. eapply I2; eassumption.
    + exists p', l, L, D. split; [|auto]. rewrite Hn, nth_error_upd, Nat.eqb_refl. apply Nat.ltb_lt in Hlt. rewrite Hlt. reflexivity.
Qed.

Lemma inv_start : inv (MkBWorld (MkBMem (MkHeap [] 0) (MkHeap [] 0) (MkHeap [] 0)) [] []).
Proof.
  constructor; cbn [bw_parsers bw_loans bw_mem].
  - intros [|i] p H; discriminate.
  - intros [|i] j p p' _ H; discriminate.
  - contradiction.
Qed.

Lemma live_new mem l L D : let '(cs, hc) := vec_new (bm_chars mem) l in
  let '(ps, hp) := vec_new (bm_patterns mem) L in
  let '(ds, hd) := vec_new (bm_conditions mem) D in
  live (MkBMem hc hp hd) (MkParserB cs ps ds) (fresh (v_tag cs) l) (fresh (v_tag ps) L) (fresh (v_tag ds) D)
  /\ (forall r x X Y, live mem r x X Y -> live (MkBMem hc hp hd) r x X Y /\ apart r (MkParserB cs ps ds))
  /\ (forall b m, buf (bm_chars mem) b m -> buf hc b m /\ b <> v_addr cs).
Proof.
  pose proof (vec_new_ok _ (bm_chars mem) l) as K1. pose proof (vec_new_ok _ (bm_patterns mem) L) as K2. pose proof (vec_new_ok _ (bm_conditions mem) D) as K3.
  destruct (vec_new (bm_chars mem) l) as [cs hc], (vec_new (bm_patterns mem) L) as [ps hp], (vec_new (bm_conditions mem) D) as [ds hd].
  destruct K1 as (A1 & B1 & C1), K2 as (A2 & B2 & C2), K3 as (A3 & B3 & C3). split; [|split].
  - split; [|split]; (split; [assumption|apply fresh_base]).
  - intros r x X Y ((J1 & J1') & (J2 & J2') & (J3 & J3')). split.
    + split; [|split]; (split; [|assumption]); cbn [bm_chars bm_patterns bm_conditions]; auto.
    + apply buf_lt in J1. apply buf_lt in J2. apply buf_lt in J3. unfold apart. cbn [pb_chars pb_patterns pb_conditions]. lia.
  - intros b m J. split; [auto|]. apply buf_lt in J. lia.
Qed.

Lemma parser_clone_b_ok mem p l L D : live mem p l L D ->
  exists p' mem' l' L' D', parser_clone_b mem p = Ok (p', mem') /\ live mem' p l' L' D' /\ chg ext l l' /\ chg ext L L' /\ chg ext D D'
    /\ live mem' p' (fresh (v_tag (pb_chars p')) (map fst l)) (fresh (v_tag (pb_patterns p')) (map fst L)) (fresh (v_tag (pb_conditions p')) (map fst D))
    /\ (forall r x X Y, live mem r x X Y -> apart r p') /\ (forall r x X Y, apart r p -> live mem r x X Y -> live mem' r x X Y)
    /\ (forall b m, b <> v_addr (pb_chars p) -> buf (bm_chars mem) b m -> buf (bm_chars mem') b m /\ b <> v_addr (pb_chars p')).
Proof.
  intros ((A1 & F1) & (A2 & F2) & (A3 & F3)). unfold parser_clone_b.
  destruct (vec_clone_ok _ _ _ _ A1 F1) as (hc & lc & cs & E1 & B1 & C1 & K1 & N1 & M1 & O1). rewrite E1. cbn [bind].
  destruct (vec_clone_ok _ _ _ _ A2 F2) as (hp & lp & ps & E2 & B2 & C2 & K2 & N2 & M2 & O2). rewrite E2. cbn [bind].
  destruct (vec_clone_ok _ _ _ _ A3 F3) as (hd & ld & ds & E3 & B3 & C3 & K3 & N3 & M3 & O3). rewrite E3. cbn [bind].
  eexists _, _, lc, lp, ld. split; [reflexivity|]. cbn [pb_chars pb_patterns pb_conditions].
  split; [split; [|split]; split; assumption|]. split; [exact C1|]. split; [exact C2|]. split; [exact C3|].
  split; [split; [|split]; (split; [assumption|apply fresh_base])|]. split; [|split].
  - intros r x X Y ((J1 & J1') & (J2 & J2') & (J3 & J3')). apply buf_lt in J1. apply buf_lt in J2. apply buf_lt in J3.
    unfold apart. cbn [pb_chars pb_patterns pb_conditions]. lia.
  - intros r x X Y (Q1 & Q2 & Q3) ((J1 & J1') & (J2 & J2') & (J3 & J3')).
    split; [|split]; (split; [|assumption]); cbn [bm_chars bm_patterns bm_conditions]; auto.
  - intros b m Hb J. split; [auto|]. apply buf_lt in J. lia.
Qed.

Lemma parser_drop_b_ok mem p l L D : live mem p l L D ->
  exists mem', parser_drop_b mem p = Ok mem' /\ (forall r x X Y, apart r p -> live mem r x X Y -> live mem' r x X Y)
    /\ (forall b m, b <> v_addr (pb_chars p) -> buf (bm_chars mem) b m -> buf (bm_chars mem') b m).
Proof.
  intros ((A1 & F1) & (A2 & F2) & (A3 & F3)). unfold parser_drop_b.
  destruct (vec_drop_ok _ _ _ _ A1 F1) as (hc & E1 & U1). rewrite E1. cbn [bind].
  destruct (vec_drop_ok _ _ _ _ A2 F2) as (hp & E2 & U2). rewrite E2. cbn [bind].
  destruct (vec_drop_ok _ _ _ _ A3 F3) as (hd & E3 & U3). rewrite E3. cbn [bind].
  eexists. split; [reflexivity|].
  assert (G : forall A (h h' : bheap A) a b m, Borrows.hp h' = upd (Borrows.hp h) a None -> b <> a -> buf h b m -> buf h' b m).
  { intros A h h' a b m U N B. unfold buf. rewrite U, nth_error_upd. destruct (Nat.eqb_spec b a); [congruence|exact B]. }
  split; [|intros b m Hb J; eapply G; eassumption].
  intros r x X Y (Q1 & Q2 & Q3) ((J1 & J1') & (J2 & J2') & (J3 & J3')).
  split; [|split]; (split; [|assumption]); cbn [bm_chars bm_patterns bm_conditions]; eapply G; eassumption.
Qed.

Lemma inv_step w w' : inv w -> bstep w w' -> inv w'.
Proof.
  intros IH H. destruct H as [mem ps ls p mem' E|mem ps ls i p p' mem' Hi E|mem ps ls i p mem' Hi E|mem ps ls i p g1 g2 g3 s q p' mem' Hi E|mem ps ls i p s q mem' Hi E|mem ps ls i p s Hi E|mem ps ls b q mem' Hb E].
  - pose proof (live_new mem (repeat 0%N 64) (repeat default_pattern_b 64) (repeat empty_bref 64)) as K. unfold parser_new_b in E.
    destruct (vec_new (bm_chars mem) (repeat 0%N 64)) as [cs hc], (vec_new (bm_patterns mem) (repeat default_pattern_b 64)) as [pp hp],
      (vec_new (bm_conditions mem) (repeat empty_bref 64)) as [ds hd]. destruct K as (K & F & _). injection E as <- <-.
    eapply inv_add; [exact IH|exact K| |].
    + unfold fresh. rewrite map_length, repeat_length. lia.
    + intros i r x X Y _ Kr. destruct (F _ _ _ _ Kr) as [F1 F2]. split; [exact F2|]. exists x, X, Y. split; [exact F1|].
      split; [|split]; apply chg_refl, ext_refl.
  - destruct (iv_live _ IH i p Hi) as (l & L & D & K & Hl). cbn [bw_mem] in *.
    destruct (parser_clone_b_ok mem p l L D K) as (p1 & mem1 & l1 & L1 & D1 & E1 & K1 & C1 & C2 & C3 & K2 & F1 & F2 & _).
    rewrite E1 in E. injection E as <- <-. eapply inv_add; [exact IH|exact K2| |].
    + unfold fresh. rewrite !map_length. exact Hl.
    + intros j r x X Y Hj Kr. split; [eapply F1; exact Kr|]. destruct (Nat.eq_dec j i) as [->|Hji].
      * assert (r = p) by congruence. subst r. exists l1, L1, D1. split; [exact K1|].
        destruct Kr as ((J1 & _) & (J2 & _) & (J3 & _)), K as ((J1' & _) & (J2' & _) & (J3' & _)). unfold buf in *.
        replace x with l by congruence. replace X with L by congruence. replace Y with D by congruence. auto.
      * exists x, X, Y. split; [|split; [|split]; apply chg_refl, ext_refl]. apply F2; [|exact Kr].
        exact (iv_apart _ IH _ _ _ _ Hji Hj Hi).
  - destruct (iv_live _ IH i p Hi) as (l & L & D & K & Hl). cbn [bw_mem] in *.
    destruct (parser_drop_b_ok mem p l L D K) as (mem1 & E1 & F & _). rewrite E1 in E. injection E as <-.
    eapply inv_at; [exact IH|exact Hi| | |].
    + intros r x X Y Q Kr. split; [eapply F; eassumption|discriminate].
    + discriminate.
    + intros b Hb. left. apply in_other_bloans. exact Hb.
  - destruct (iv_live _ IH i p Hi) as (l & L & D & K & Hl). cbn [bw_mem] in *.
    destruct (parse_b_ok g1 g2 g3 mem p l L D s K) as (q1 & p1 & mem1 & l1 & L1 & D1 & E1 & K1 & R1 & Hl1 & F & _).
    rewrite E1 in E. injection E as <- <- <-. eapply inv_at; [exact IH|exact Hi| | |].
    + intros r x X Y Q K'. destruct (F _ _ _ _ Q K') as [F1 F2]. split; [exact F1|]. intros p' [= <-]. exact F2.
    + intros p' [= <-]. exists l1, L1, D1. split; [exact K1|lia].
    + intros b [<-|Hb]; [right|left; apply in_other_bloans; exact Hb]. split; [reflexivity|].
      exists p1, l1, L1, D1. auto.
  - destruct (iv_live _ IH i p Hi) as (l & L & D & K & Hl). cbn [bw_mem] in *.
    pose proof (parse_not_extended_b_ok mem p l L D s K) as G. destruct (length s <=? length l); [|congruence].
    destruct G as (q1 & mem1 & l1 & E1 & K1 & R1 & Hl1 & F & _). rewrite E1 in E. injection E as <- <-.
    rewrite <- (upd_same _ ps i (Some p)) by exact Hi. eapply inv_at; [exact IH|exact Hi| | |].
    + intros r x X Y Q K'. split; [eapply F; eassumption|]. intros p' [= <-]. exact Q.
    + intros p' [= <-]. exists l1, L, D. split; [exact K1|lia].
    + intros b [<-|Hb]; [right|left; apply in_other_bloans; exact Hb]. split; [reflexivity|].
      exists p, l1, L, D. auto.
  - destruct (iv_live _ IH i p Hi) as (l & L & D & K & Hl). cbn [bw_mem] in *.
    destruct (parse_not_extended_caught_b_ok mem p l L D s K) as (l1 & K1 & Hl1 & F & _).
    rewrite <- (upd_same _ ps i (Some p)) by exact Hi. eapply inv_at; [exact IH|exact Hi| | |].
    + intros r x X Y Q K'. split; [eapply F; eassumption|]. intros p' [= <-]. exact Q.
    + intros p' [= <-]. exists l1, L, D. split; [exact K1|lia].
    + intros b Hb. left. apply in_other_bloans. exact Hb.
  - destruct (iv_loans _ IH _ Hb) as (p & l & L & D & _ & ((K1 & _) & (K2 & _) & (K3 & _)) & R). cbn [bw_mem] in *.
    rewrite (reads_read _ _ _ _ _ _ _ _ _ K1 K2 K3 R) in E. injection E as _ <-. exact IH.
Qed.

(** A buffer of characters which is not a parser's is left alone by the parsers *)
Lemma step_frame w w' b x : inv w -> bstep w w' -> buf (bm_chars (bw_mem w)) b x ->
  (forall i p, nth_error (bw_parsers w) i = Some (Some p) -> b <> v_addr (pb_chars p)) ->
  buf (bm_chars (bw_mem w')) b x /\ (forall i p, nth_error (bw_parsers w') i = Some (Some p) -> b <> v_addr (pb_chars p)).
Proof.
  intros IH H. assert (N : forall ps i o j (q : parser_b), nth_error (upd ps i o) j = Some (Some q) ->
      o = Some q \/ nth_error ps j = Some (Some q)).
  { intros ps i o j q H'. rewrite nth_error_upd in H'. destruct ((j =? i) && (i <? length ps)); [left; congruence|auto]. }
  destruct H as [mem ps ls p mem' E|mem ps ls i p p' mem' Hi E|mem ps ls i p mem' Hi E|mem ps ls i p g1 g2 g3 s q p' mem' Hi E|mem ps ls i p s q mem' Hi E|mem ps ls i p s Hi E|mem ps ls r q mem' Hb E];
    cbn [bw_mem bw_parsers] in *; intros A F.
  - pose proof (live_new mem (repeat 0%N 64) (repeat default_pattern_b 64) (repeat empty_bref 64)) as K. unfold parser_new_b in E.
    destruct (vec_new (bm_chars mem) (repeat 0%N 64)) as [cs hc], (vec_new (bm_patterns mem) (repeat default_pattern_b 64)) as [pp hp],
      (vec_new (bm_conditions mem) (repeat empty_bref 64)) as [ds hd]. destruct K as (_ & _ & G). injection E as <- <-.
    destruct (G _ _ A) as [G1 G2]. split; [exact G1|].
    intros j q H. apply MemoryProofs.nth_error_snoc in H as [H|[_ [= <-]]]; [eapply F; exact H|exact G2].
  - destruct (iv_live _ IH i p Hi) as (l & L & D & K & Hl). cbn [bw_mem] in *.
    destruct (parser_clone_b_ok mem p l L D K) as (p1 & mem1 & l1 & L1 & D1 & E1 & _ & _ & _ & _ & _ & _ & _ & G).
    rewrite E1 in E. injection E as <- <-. destruct (G _ _ (F _ _ Hi) A) as [G1 G2]. split; [exact G1|].
    intros j q H. apply MemoryProofs.nth_error_snoc in H as [H|[_ [= <-]]]; [eapply F; exact H|exact G2].
  - destruct (iv_live _ IH i p Hi) as (l & L & D & K & Hl). cbn [bw_mem] in *.
    destruct (parser_drop_b_ok mem p l L D K) as (mem1 & E1 & _ & G). rewrite E1 in E. injection E as <-.
    split; [exact (G _ _ (F _ _ Hi) A)|]. intros j q H. apply N in H as [H|H]; [discriminate|]. eapply F; exact H.
  - destruct (iv_live _ IH i p Hi) as (l & L & D & K & Hl). cbn [bw_mem] in *.
    destruct (parse_b_ok g1 g2 g3 mem p l L D s K) as (q1 & p1 & mem1 & l1 & L1 & D1 & E1 & _ & _ & _ & _ & G).
    rewrite E1 in E. injection E as <- <- <-. destruct (G _ _ (F _ _ Hi) A) as [G1 G2]. split; [exact G1|].
    intros j q H. apply N in H as [[= <-]|H]; [exact G2|]. eapply F; exact H.
  - destruct (iv_live _ IH i p Hi) as (l & L & D & K & Hl). cbn [bw_mem] in *.
    pose proof (parse_not_extended_b_ok mem p l L D s K) as G. destruct (length s <=? length l); [|congruence].
    destruct G as (q1 & mem1 & l1 & E1 & _ & _ & _ & _ & G). rewrite E1 in E. injection E as <- <-.
    split; [apply G; [eapply F; exact Hi|exact A]|exact F].
  - destruct (iv_live _ IH i p Hi) as (l & L & D & K & Hl). cbn [bw_mem] in *.
    destruct (parse_not_extended_caught_b_ok mem p l L D s K) as (l1 & _ & _ & _ & G).
    split; [apply G; [eapply F; exact Hi|exact A]|exact F].
  - destruct (iv_loans _ IH _ Hb) as (p & l & L & D & _ & ((K1 & _) & (K2 & _) & (K3 & _)) & R). cbn [bw_mem] in *.
    rewrite (reads_read _ _ _ _ _ _ _ _ _ K1 K2 K3 R) in E. injection E as _ <-. auto.
Qed.

Lemma inv_reached w : bworld_reached w -> inv w.
Proof. induction 1 as [|w w' _ IH H]; [apply inv_start|eapply inv_step; eassumption]. Qed.

(** Every query which may still be read, reads as what the parser without memory returns, and reading it changes nothing *)
Lemma queries_read w b : inv w -> In b (bw_loans w) ->
  exists q, read_query_b (bw_mem w) (bl_query b) = Ok (q, bw_mem w)
    /\ if bl_extended b then exists ps, parse parser_new (bl_string b) = Ok (q, ps) else q = new_not_extended (bl_string b).
Proof.
  intros H Hb. destruct (iv_loans _ H _ Hb) as (p & l & L & D & _ & ((K1 & _) & (K2 & _) & (K3 & _)) & R).
  exists (wanted (bl_extended b) (bl_string b)). split; [eapply reads_read; eassumption|]. unfold wanted. destruct (bl_extended b); [|reflexivity].
  destruct (parse_correct parser_new (bl_string b)) as (ps & E & _). exists ps. exact E.
Qed.

Lemma queries_valid w b : bworld_reached w -> In b (bw_loans w) ->
  exists q, read_query_b (bw_mem w) (bl_query b) = Ok (q, bw_mem w)
    /\ if bl_extended b then exists ps, parse parser_new (bl_string b) = Ok (q, ps) else q = new_not_extended (bl_string b).
Proof. intros H. apply queries_read, inv_reached, H. Qed.

(** No call makes an access which is not allowed *)
Lemma calls_return_inv w i p : inv w -> nth_error (bw_parsers w) i = Some (Some p) ->
  (forall g1 g2 g3 s, exists r, parse_b g1 g2 g3 (bw_mem w) p s = Ok r)
  /\ (exists r, parser_clone_b (bw_mem w) p = Ok r)
  /\ (exists r, parser_drop_b (bw_mem w) p = Ok r)
  /\ (forall s, (exists r, parse_not_extended_b (bw_mem w) p s = Ok r)
        <-> exists l, cells_at (bm_chars (bw_mem w)) (v_addr (pb_chars p)) = Ok l /\ length s <= length l)
  /\ (exists l, cells_at (bm_chars (bw_mem w)) (v_addr (pb_chars p)) = Ok l /\ 64 <= length l).
Proof.
  intros H Hi. destruct (iv_live _ H _ _ Hi) as (l & L & D & K & Hl). pose proof K as ((K1 & _) & K2 & K3).
  assert (B : cells_at (bm_chars (bw_mem w)) (v_addr (pb_chars p)) = Ok l) by (apply buf_cells; exact K1).
  split; [|split; [|split; [|split]]].
  - intros g1 g2 g3 s. destruct (parse_b_ok g1 g2 g3 _ _ _ _ _ s K) as (q & p' & mem' & _ & _ & _ & E & _). eexists. exact E.
  - destruct (parser_clone_b_ok _ _ _ _ _ K) as (p' & mem' & _ & _ & _ & E & _). eexists. exact E.
  - destruct (parser_drop_b_ok _ _ _ _ _ K) as (mem' & E & _). eexists. exact E.
  - intros s. pose proof (parse_not_extended_b_ok _ _ _ _ _ s K) as G. rewrite B. destruct (Nat.leb_spec (length s) (length l)) as [Hs|Hs].
    + destruct G as (q1 & mem1 & l1 & E1 & _). split; intros _; [exists l; auto|eexists; exact E1].
    + split; [intros [r E]; congruence|]. intros (l' & [= <-] & Hs'). lia.
  - exists l. auto.
Qed.

Lemma calls_return w i p : bworld_reached w -> nth_error (bw_parsers w) i = Some (Some p) ->
  (forall g1 g2 g3 s, exists r, parse_b g1 g2 g3 (bw_mem w) p s = Ok r)
  /\ (exists r, parser_clone_b (bw_mem w) p = Ok r)
  /\ (exists r, parser_drop_b (bw_mem w) p = Ok r)
  /\ (forall s, (exists r, parse_not_extended_b (bw_mem w) p s = Ok r)
        <-> exists l, cells_at (bm_chars (bw_mem w)) (v_addr (pb_chars p)) = Ok l /\ length s <= length l)
  /\ (exists l, cells_at (bm_chars (bw_mem w)) (v_addr (pb_chars p)) = Ok l /\ 64 <= length l).
Proof. intros H. apply calls_return_inv, inv_reached, H. Qed.

End WithUnicode.
