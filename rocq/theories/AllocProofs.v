(** Proofs about memory which is allocated and freed. *)
From Verif Require Import Prelude Chars Utils Candidate MatchedRanges Query Parser Scoring Slab Fzf FzfV1 FzfV2 Api History
  MemoryMetric Borrows BorrowsMetric BorrowsThreads Workers SpecAlloc PreludeProofs.
Local Open Scope nat_scope.

Lemma existing_app A (l m : list (option A)) : existing (l ++ m) = existing l + existing m.
Proof. induction l as [|[x|] l IH]; cbn [existing app]; lia. Qed.

Lemma existing_upd A (l : list (option A)) : forall i x o, nth_error l i = Some (Some x) ->
  existing (upd l i o) = match o with Some _ => existing l | None => existing l - 1 end /\ 1 <= existing l.
Proof.
  induction l as [|a l IH]; intros [|i] x o H; cbn [nth_error] in H; try discriminate.
  - injection H as ->. cbn [upd existing]. destruct o; cbn [existing]; lia.
  - destruct (IH _ _ o H) as [E1 E2]. cbn [upd existing]. destruct a, o; cbn [existing]; lia.
Qed.

Lemma ok_same A (x y : A) : Ok x = Ok y -> x = y.
Proof. congruence. Qed.

Lemma pair_same A B (x y : A) (u v : B) : (x, u) = (y, v) -> x = y /\ u = v.
Proof. intros [= -> ->]. auto. Qed.

Ltac binds := repeat first
  [ match goal with
    | H : Ok _ = Ok _ |- _ => apply ok_same in H; try subst
    | H : (_, _) = (_, _) |- _ => let H' := fresh in apply pair_same in H as [H H']; try subst
    | H : bind ?e _ = Ok _ |- _ => let E := fresh "E" in destruct e eqn:E; cbn [bind] in H; try discriminate
    | H : (let '(_, _) := ?e in _) = Ok _ |- _ => is_var e; destruct e
    | H : (if ?b then _ else _) = Ok _ |- _ => let E := fresh "E" in destruct b eqn:E; try discriminate
    | H : Panic = Ok _ |- _ => discriminate
    | H : OutOfFuel = Ok _ |- _ => discriminate
    end ].

Section Heap.
Context {A : Type}.

Lemma cells_at_some (h : bheap A) a l : cells_at h a = Ok l -> nth_error (hp h) a = Some (Some l).
Proof. unfold cells_at. destruct (nth_error (hp h) a) as [[x|]|]; try discriminate. congruence. Qed.

Lemma use_kept f push (h h' : bheap A) r i n : use f push h r i n = Ok h' -> buffers h' = buffers h.
Proof.
  unfold use. intros H. binds; [reflexivity|]. unfold buffers. cbn [hp]. apply cells_at_some in E0.
  apply (existing_upd _ _ _ _ (Some _) E0).
Qed.

Lemma read_kept (h h' : bheap A) r l : read h r = Ok (l, h') -> buffers h' = buffers h.
Proof. unfold read. intros H. binds; eapply use_kept; eassumption. Qed.

Lemma write_kept (h h' : bheap A) r i x : write h r i x = Ok h' -> buffers h' = buffers h.
Proof.
  unfold write. intros H. binds. destruct (nth_error a0 (b_start r + i)) as [[y s]|]; [|discriminate]. binds.
  apply use_kept in E0. rewrite <- E0. unfold buffers. cbn [hp]. apply cells_at_some in E1. apply (existing_upd _ _ _ _ (Some _) E1).
Qed.

Lemma reborrow_kept (h h' : bheap A) r r' i n : reborrow h r i n = Ok (r', h') -> buffers h' = buffers h.
Proof. unfold reborrow. intros H. binds. apply use_kept in E0. exact E0. Qed.

Lemma reborrow_mut_kept (h h' : bheap A) r r' i n : reborrow_mut h r i n = Ok (r', h') -> buffers h' = buffers h.
Proof. unfold reborrow_mut. intros H. binds. apply use_kept in E0. exact E0. Qed.

Lemma subslice_kept (h h' : bheap A) r r' i j : subslice h r i j = Ok (r', h') -> buffers h' = buffers h.
Proof. unfold subslice. intros H. binds. apply reborrow_kept in E0, H. congruence. Qed.

Lemma vec_mut_kept (h h' : bheap A) v r : vec_mut h v = Ok (r, h') -> buffers h' = buffers h.
Proof. unfold vec_mut. intros H. binds. eapply reborrow_mut_kept; eassumption. Qed.

Lemma vec_ref_kept (h h' : bheap A) v r : vec_ref h v = Ok (r, h') -> buffers h' = buffers h.
Proof. unfold vec_ref. intros H. binds. eapply reborrow_kept; eassumption. Qed.

Lemma vec_set_kept (h h' : bheap A) v i x : vec_set h v i x = Ok h' -> buffers h' = buffers h.
Proof. unfold vec_set. intros H. binds. apply vec_mut_kept in E. apply reborrow_mut_kept in E0. apply write_kept in H. congruence. Qed.

Lemma vec_slice_kept (h h' : bheap A) v i j r : vec_slice h v i j = Ok (r, h') -> buffers h' = buffers h.
Proof. unfold vec_slice. intros H. binds. apply vec_ref_kept in E0. apply reborrow_kept in H. congruence. Qed.

Lemma vec_new_more (h h' : bheap A) l v : vec_new h l = (v, h') -> buffers h' = buffers h + 1.
Proof. unfold vec_new, buffers. intros [= <- <-]. cbn [hp]. rewrite existing_app. reflexivity. Qed.

Lemma vec_clone_more (h h' : bheap A) v v' : vec_clone h v = Ok (v', h') -> buffers h' = buffers h + 1.
Proof. unfold vec_clone. intros H. binds. apply vec_ref_kept in E. apply read_kept in E0. apply vec_new_more in H. lia. Qed.

Lemma use_some f push (h h' : bheap A) r i n a l : use f push h r i n = Ok h' -> nth_error (hp h) a = Some (Some l) -> exists l', nth_error (hp h') a = Some (Some l').
Proof.
  unfold use. intros H Ha. binds; [eauto|]. cbn [hp]. rewrite nth_error_upd. destruct ((a =? b_addr r) && (b_addr r <? length (hp h))); eauto.
Qed.

Lemma vec_drop_less (h h' : bheap A) v : vec_drop h v = Ok h' -> buffers h' + 1 = buffers h.
Proof.
  unfold vec_drop, vec_ptr. intros H. binds. cbn [b_len] in *. apply cells_at_some in E1. destruct (use_some _ _ _ _ _ _ _ _ _ E0 E1) as (l' & E2).
  apply use_kept in E0. destruct (existing_upd _ _ _ _ None E2) as [E3 E4]. unfold buffers in *. cbn [hp]. lia.
Qed.

Lemma vec_grow_kept g (h h' : bheap A) v v' n d : vec_grow g h v n d = Ok (v', h') -> buffers h' = buffers h.
Proof.
  unfold vec_grow. intros H. binds; [|reflexivity]. apply cells_at_some in E. destruct g; binds.
  - unfold buffers. cbn [hp]. apply (existing_upd _ _ _ _ (Some _) E).
  - unfold vec_drop, vec_ptr in *. binds. cbn [hp hp_tag].
    match goal with X : use _ _ _ _ _ _ = Ok _ |- _ => destruct (use_some _ _ _ _ _ _ _ _ _ X E) as (l' & F3); apply use_kept in X; rename X into F2 end.
    unfold buffers in *. cbn [hp]. assert (X : forall (l : list (option (cells A))) i a b, upd (upd l i a) i b = upd l i b).
    { induction l as [|x l IH]; intros [|i] y b; cbn [upd]; try reflexivity. f_equal. apply IH. }
    rewrite X, <- F2. apply (existing_upd _ _ _ _ (Some _) F3).
  - apply vec_drop_less in E1. apply vec_new_more in H. lia.
Qed.

End Heap.

(** ** The memory *)
Lemma allocated_same mem mem' : buffers (bm_chars mem') = buffers (bm_chars mem) -> buffers (bm_patterns mem') = buffers (bm_patterns mem) ->
  buffers (bm_conditions mem') = buffers (bm_conditions mem) -> allocated mem' = allocated mem.
Proof. unfold allocated. congruence. Qed.

Lemma set_chars_kept mem h : buffers h = buffers (bm_chars mem) -> allocated (set_chars mem h) = allocated mem.
Proof. intros H. apply allocated_same; cbn [set_chars bm_chars bm_patterns bm_conditions]; auto. Qed.

Lemma set_patterns_kept mem h : buffers h = buffers (bm_patterns mem) -> allocated (set_patterns mem h) = allocated mem.
Proof. intros H. apply allocated_same; cbn [set_patterns bm_chars bm_patterns bm_conditions]; auto. Qed.

Lemma set_conditions_kept mem h : buffers h = buffers (bm_conditions mem) -> allocated (set_conditions mem h) = allocated mem.
Proof. intros H. apply allocated_same; cbn [set_conditions bm_chars bm_patterns bm_conditions]; auto. Qed.

Lemma read_pattern_kept mem p x mem' : read_pattern_b mem p = Ok (x, mem') -> allocated mem' = allocated mem.
Proof. unfold read_pattern_b. intros H. binds. apply set_chars_kept. eapply read_kept; eassumption. Qed.

Lemma read_all_kept B C (f : bmemory -> B -> res (C * bmemory)) : (forall mem x y mem', f mem x = Ok (y, mem') -> allocated mem' = allocated mem) ->
  forall l mem ys mem', read_all_b f mem l = Ok (ys, mem') -> allocated mem' = allocated mem.
Proof.
  intros Hf. induction l as [|x l IH]; intros mem ys mem' H; cbn [read_all_b] in H; binds; [reflexivity|].
  apply Hf in E. apply IH in E0. congruence.
Qed.

Lemma read_condition_kept mem c x mem' : read_condition_b mem c = Ok (x, mem') -> allocated mem' = allocated mem.
Proof.
  unfold read_condition_b. intros H. binds. apply (read_all_kept _ _ _ read_pattern_kept) in H. rewrite H.
  apply set_patterns_kept. eapply read_kept; eassumption.
Qed.

Lemma read_query_kept mem q x mem' : read_query_b mem q = Ok (x, mem') -> allocated mem' = allocated mem.
Proof.
  unfold read_query_b. destruct q; intros H; binds.
  - apply (read_all_kept _ _ _ read_condition_kept) in E0. rewrite E0. apply set_conditions_kept. eapply read_kept; eassumption.
  - eapply read_pattern_kept; eassumption.
Qed.

(** ** The parser *)
Definition plus (n : nat * nat * nat) (k : nat * nat * nat) : nat * nat * nat :=
  (fst (fst n) + fst (fst k), snd (fst n) + snd (fst k), snd n + snd k).

Lemma parser_new_more mem p mem' : parser_new_b mem = (p, mem') -> allocated mem' = plus (allocated mem) (1, 1, 1).
Proof.
  unfold parser_new_b. destruct (vec_new (bm_chars mem) (repeat 0%N 64)) as [v1 h1] eqn:E1.
  destruct (vec_new (bm_patterns mem) (repeat default_pattern_b 64)) as [v2 h2] eqn:E2.
  destruct (vec_new (bm_conditions mem) (repeat empty_bref 64)) as [v3 h3] eqn:E3. intros [= <- <-].
  apply vec_new_more in E1, E2, E3. unfold allocated, plus. cbn [bm_chars bm_patterns bm_conditions fst snd]. congruence.
Qed.

Lemma parser_clone_more mem p p' mem' : parser_clone_b mem p = Ok (p', mem') -> allocated mem' = plus (allocated mem) (1, 1, 1).
Proof.
  unfold parser_clone_b. intros H. binds. apply vec_clone_more in E, E0, E1. unfold allocated, plus. cbn [bm_chars bm_patterns bm_conditions fst snd]. congruence.
Qed.

Lemma parser_drop_less mem p mem' : parser_drop_b mem p = Ok mem' -> plus (allocated mem') (1, 1, 1) = allocated mem.
Proof.
  unfold parser_drop_b. intros H. binds. apply vec_drop_less in E, E0, E1. unfold allocated, plus. cbn [bm_chars bm_patterns bm_conditions fst snd]. congruence.
Qed.

Lemma words_alloc_kept s : forall h buf n h' n', words_alloc_b h buf n s = Ok (h', n') -> buffers h' = buffers h.
Proof.
  induction s as [|c s IH]; intros h buf n h' n' H; cbn [words_alloc_b] in H; binds; [reflexivity|]. apply write_kept in E. apply IH in H. congruence.
Qed.

Lemma words_next_loop_kept fuel : forall h buf n s w h' n' w', words_next_loop_b fuel h buf n s w = Ok (h', n', w') -> buffers h' = buffers h.
Proof.
  induction fuel as [|fuel IH]; intros h buf n s w h' n' w' H; cbn [words_next_loop_b] in H; [discriminate|].
  destruct (memchr SPACE s) as [[|o]|]; binds; try reflexivity;
    repeat match goal with X : words_alloc_b _ _ _ _ = Ok _ |- _ => apply words_alloc_kept in X | X : words_next_loop_b _ _ _ _ _ _ = Ok _ |- _ => apply IH in X end; congruence.
Qed.

Lemma words_next_kept h w r h' w' : words_next_b h w = Ok (r, h', w') -> buffers h' = buffers h.
Proof.
  unfold words_next_b. destruct (wb_s w) as [|c s]; intros H; binds; [reflexivity|].
  repeat match goal with X : words_next_loop_b _ _ _ _ _ _ = Ok _ |- _ => apply words_next_loop_kept in X | X : subslice _ _ _ _ = Ok _ |- _ => apply subslice_kept in X end. congruence.
Qed.

Section WithUnicode.
Context {UC : unicode}.

Lemma mk_pattern_kept h t mt inv p h' : mk_pattern_b h t mt inv = Ok (p, h') -> buffers h' = buffers h.
Proof. unfold mk_pattern_b. intros H. binds. eapply read_kept; eassumption. Qed.

Lemma pattern_parse_kept h t r h' : pattern_parse_b h t = Ok (r, h') -> buffers h' = buffers h.
Proof.
  unfold pattern_parse_b. intros H. binds;
  repeat match goal with
    | X : read _ _ = Ok _ |- _ => apply read_kept in X
    | X : subslice _ _ _ _ = Ok _ |- _ => apply subslice_kept in X
    | X : mk_pattern_b _ _ _ _ = Ok _ |- _ => apply mk_pattern_kept in X end; congruence.
Qed.

Lemma patterns_alloc_kept mem p pat mem' p' : patterns_alloc_b mem p pat = Ok (mem', p') -> allocated mem' = allocated mem.
Proof. unfold patterns_alloc_b. intros H. binds. apply set_patterns_kept. eapply write_kept; eassumption. Qed.

Lemma patterns_next_loop_kept fuel : forall mem p b mem' p', patterns_next_loop_b fuel mem p b = Ok (mem', p') -> allocated mem' = allocated mem.
Proof.
  induction fuel as [|fuel IH]; intros mem p b mem' p' H; cbn [patterns_next_loop_b] in H; [discriminate|]. binds. apply words_next_kept in E.
  destruct o as [word|]; binds.
  - apply read_kept in E0. apply pattern_parse_kept in E2. assert (X : allocated (set_chars mem b2) = allocated mem) by (apply set_chars_kept; congruence).
    destruct o as [pat|]; binds;
    repeat match goal with
      | X : patterns_alloc_b _ _ _ = Ok _ |- _ => apply patterns_alloc_kept in X
      | X : patterns_next_loop_b _ _ _ _ = Ok _ |- _ => apply IH in X end; congruence.
  - apply read_kept in E0. apply IH in H. rewrite H. apply set_chars_kept. congruence.
  - apply set_chars_kept. exact E.
Qed.

Lemma patterns_next_kept mem p c mem' p' : patterns_next_b mem p = Ok (c, mem', p') -> allocated mem' = allocated mem.
Proof.
  unfold patterns_next_b. intros H. destruct (ptb_next p) as [first|]; cbn [bind] in H; binds;
  repeat match goal with
    | X : patterns_alloc_b _ _ _ = Ok _ |- _ => apply patterns_alloc_kept in X
    | X : patterns_next_loop_b _ _ _ _ = Ok _ |- _ => apply patterns_next_loop_kept in X
    | X : subslice _ _ _ _ = Ok _ |- _ => apply subslice_kept, set_patterns_kept in X end; congruence.
Qed.

Lemma parse_loop_kept fuel : forall mem p v n mem' n', parse_loop_b fuel mem p v n = Ok (mem', n') -> allocated mem' = allocated mem.
Proof.
  induction fuel as [|fuel IH]; intros mem p v n mem' n' H; cbn [parse_loop_b] in H; [discriminate|]. binds. apply patterns_next_kept in E.
  destruct o as [c|]; binds; [|congruence]. apply IH in H. apply vec_set_kept, set_conditions_kept in E0. congruence.
Qed.

Lemma new_extended_kept mem r q mem' : new_extended_b mem r = Ok (q, mem') -> allocated mem' = allocated mem.
Proof.
  unfold new_extended_b. intros H. binds. apply read_kept, set_conditions_kept in E. destruct l as [|c [|? ?]]; binds; try congruence.
  apply read_kept, set_patterns_kept in E0. destruct l as [|f [|? ?]]; try discriminate; [destruct (pb_match_type f)|]; binds; congruence.
Qed.

Lemma parse_kept g1 g2 g3 mem p s q p' mem' : parse_b g1 g2 g3 mem p s = Ok (q, p', mem') -> allocated mem' = allocated mem.
Proof.
  unfold parse_b. intros H. binds.
  repeat match goal with
    | X : vec_grow _ _ _ _ _ = Ok _ |- _ => apply vec_grow_kept in X
    | X : vec_mut _ _ = Ok _ |- _ => apply vec_mut_kept in X
    | X : parse_loop_b _ _ _ _ _ = Ok _ |- _ => apply parse_loop_kept in X
    | X : vec_slice _ _ _ _ = Ok _ |- _ => apply vec_slice_kept, set_conditions_kept in X
    | X : new_extended_b _ _ = Ok _ |- _ => apply new_extended_kept in X end.
  unfold allocated in *. cbn [bm_chars bm_patterns bm_conditions] in *. congruence.
Qed.

Lemma fill_chars_kept v s : forall h n h' n', fill_chars_b h v n s = Ok (h', n') -> buffers h' = buffers h.
Proof.
  induction s as [|c s IH]; intros h n h' n' H; cbn [fill_chars_b] in H; binds; [reflexivity|]. apply vec_set_kept in E. apply IH in H. congruence.
Qed.

Lemma fill_chars_left_kept v s : forall h n, buffers (fill_chars_left_b h v n s) = buffers h.
Proof.
  induction s as [|c s IH]; intros h n; cbn [fill_chars_left_b]; [reflexivity|].
  destruct (vec_set h v n c) as [h'| |] eqn:E; [rewrite IH; eapply vec_set_kept; eassumption| |];
    (destruct (vec_mut h v) as [[r h']| |] eqn:E'; [eapply vec_mut_kept; eassumption|reflexivity|reflexivity]).
Qed.

Lemma parse_not_extended_kept mem p s q mem' : parse_not_extended_b mem p s = Ok (q, mem') -> allocated mem' = allocated mem.
Proof.
  unfold parse_not_extended_b, new_not_extended_b. intros H. binds. apply set_chars_kept.
  repeat match goal with
    | X : fill_chars_b _ _ _ _ = Ok _ |- _ => apply fill_chars_kept in X
    | X : vec_slice _ _ _ _ = Ok _ |- _ => apply vec_slice_kept in X
    | X : mk_pattern_b _ _ _ _ = Ok _ |- _ => apply mk_pattern_kept in X end. congruence.
Qed.

Lemma caught_kept mem p s : allocated (parse_not_extended_caught_b mem p s) = allocated mem.
Proof. apply set_chars_kept, fill_chars_left_kept. Qed.

(** ** Metrics *)
Lemma metric_new_more mem a mb mem' : metric_new_b mem a = (mb, mem') -> allocated mem' = plus (allocated mem) (1, 0, 0).
Proof.
  unfold metric_new_b. destruct (vec_new (bm_chars mem) (slab_of (metric_new a))) as [v h] eqn:E. intros [= <- <-]. apply vec_new_more in E.
  unfold allocated, plus. cbn [set_chars bm_chars bm_patterns bm_conditions fst snd]. rewrite !Nat.add_0_r. congruence.
Qed.

Lemma metric_clone_more mem mb mb' mem' : metric_clone_b mem mb = Ok (mb', mem') -> allocated mem' = plus (allocated mem) (1, 0, 0).
Proof.
  unfold metric_clone_b. intros H. binds. apply vec_clone_more in E.
  unfold allocated, plus. cbn [set_chars bm_chars bm_patterns bm_conditions fst snd]. rewrite !Nat.add_0_r. congruence.
Qed.

Lemma metric_drop_less mem mb mem' : metric_drop_b mem mb = Ok mem' -> plus (allocated mem') (1, 0, 0) = allocated mem.
Proof.
  unfold metric_drop_b. intros H. binds. apply vec_drop_less in E.
  unfold allocated, plus. cbn [set_chars bm_chars bm_patterns bm_conditions fst snd]. rewrite !Nat.add_0_r. congruence.
Qed.

(** ** Threads: every step of a search keeps the number of buffers *)
Inductive kept {A} : prog A -> Prop :=
| kept_done r : kept (Done r)
| kept_step B (op : bmemory -> res (B * bmemory)) k :
    (forall mem y mem', op mem = Ok (y, mem') -> allocated mem' = allocated mem) -> (forall y, kept (k y)) -> kept (Step op k).

Lemma kept_pbind A B (p : prog A) (f : A -> prog B) : kept p -> (forall x, kept (f x)) -> kept (pbind p f).
Proof. intros Hp Hf. induction Hp as [[x| |]|C op k Ho _ IH]; cbn [pbind]; [apply Hf|constructor|constructor|]. constructor; assumption. Qed.

Lemma on_chars_kept B (f : bheap char -> res (B * bheap char)) : (forall h y h', f h = Ok (y, h') -> buffers h' = buffers h) ->
  forall mem y mem', on_chars f mem = Ok (y, mem') -> allocated mem' = allocated mem.
Proof. intros Hf mem y mem' H. unfold on_chars in H. binds. apply set_chars_kept. eapply Hf; eassumption. Qed.

Lemma set_step_kept v i c : forall mem y mem', on_chars (no_value (fun h => vec_set h v i c) tt) mem = Ok (y, mem') -> allocated mem' = allocated mem.
Proof. apply on_chars_kept. intros h y h' H. unfold no_value in H. binds. eapply vec_set_kept; eassumption. Qed.

Lemma kept_fill v s : forall n, kept (fill_chars_p v n s).
Proof. induction s as [|c s IH]; intros n; cbn [fill_chars_p]; constructor; [apply set_step_kept|auto]. Qed.

Lemma kept_alloc g mb s : kept (alloc_chars_p g mb s).
Proof.
  unfold alloc_chars_p. constructor; [apply on_chars_kept; intros h y h' H; eapply vec_grow_kept; eassumption|].
  intros v. apply kept_pbind; [apply kept_fill|]. intros n. constructor; [apply on_chars_kept; intros h y h' H; eapply vec_slice_kept; eassumption|].
  intros r. constructor.
Qed.

Lemma kept_store v old : forall i new, kept (store_changes_p v i old new).
Proof.
  induction old as [|x old IH]; intros i [|y new]; cbn [store_changes_p]; try constructor. destruct (x =? y)%N; [apply IH|].
  constructor; [apply set_step_kept|auto].
Qed.

Lemma kept_call f mb p c ranges : kept (call_p f mb p c ranges).
Proof.
  unfold call_p. constructor; [intros mem y mem'; apply read_pattern_kept|]. intros p'.
  constructor. { intros mem y mem' H. unfold read_candidate_b in H. destruct c; binds; [reflexivity|]. apply set_chars_kept. eapply read_kept; eassumption. }
  intros c'. constructor. { apply on_chars_kept. intros h y h' H. binds. reflexivity. }
  intros l. apply kept_pbind; [constructor|]. intros [[sc m] rs]. apply kept_pbind; [apply kept_store|]. constructor.
Qed.

Lemma kept_condition RANGES c ps : forall mb ranges, kept (score_condition_p RANGES mb ps c ranges).
Proof.
  induction ps as [|p ps IH]; intros mb ranges; cbn [score_condition_p]; [constructor|]. apply kept_pbind; [apply kept_call|].
  intros [[[x|] mb'] rs]; [constructor|apply IH].
Qed.

Lemma kept_conditions RANGES c cs : forall mb total ranges, kept (score_conditions_p RANGES mb cs c total ranges).
Proof.
  induction cs as [|r cs IH]; intros mb total ranges; cbn [score_conditions_p]; [constructor|].
  constructor. { intros mem y mem' H. binds. apply set_patterns_kept. eapply read_kept; eassumption. }
  intros ps. apply kept_pbind; [apply kept_condition|]. intros [[[x|] mb'] rs]; [apply IH|constructor].
Qed.

Lemma kept_distance g RANGES mb q cand buf : kept (distance_p g RANGES mb q cand buf).
Proof.
  unfold distance_p. destruct (q_is_empty_b q); [constructor|]. apply kept_pbind.
  { destruct (str_is_ascii cand); [constructor|]. apply kept_pbind; [apply kept_alloc|]. intros [r mb']. constructor. }
  intros [c mb']. apply kept_pbind; [|intros [[sc mb2] rs]; constructor]. destruct q as [r|p]; [|apply kept_call].
  constructor; [|intros conds; apply kept_conditions]. intros mem y mem' H. binds. apply set_conditions_kept. eapply read_kept; eassumption.
Qed.

Lemma kept_search mb c : kept (search_p mb c).
Proof. unfold search_p. destruct (tc_ranges c); (apply kept_pbind; [apply kept_distance|]; intros [[d mb'] rs]; constructor). Qed.

Lemma plus_inj a b k : plus a k = plus b k -> a = b.
Proof. destruct a as [[a1 a2] a3], b as [[b1 b2] b3], k as [[k1 k2] k3]. unfold plus. cbn [fst snd]. intros [= H1 H2 H3]. f_equal; [f_equal|]; lia. Qed.

Lemma kept_parse_p j g1 g2 g3 extended p s : kept (parse_p j g1 g2 g3 extended p s).
Proof.
  unfold parse_p. constructor; [|constructor]. intros mem y mem' H. destruct extended; binds; [eapply parse_kept|eapply parse_not_extended_kept]; eassumption.
Qed.

Lemma kept_renew_metric k : kept (renew_metric_p k).
Proof.
  unfold renew_metric_p. constructor; [|constructor]. intros mem y mem' H. destruct (metric_new_b mem (bo_algo k)) as [mb mem1] eqn:E. binds.
  apply metric_new_more in E. apply metric_drop_less in E0. rewrite E in E0. eapply plus_inj; exact E0.
Qed.

Lemma kept_renew_parser p : kept (renew_parser_p p).
Proof.
  unfold renew_parser_p. constructor; [|constructor]. intros mem y mem' H. destruct (parser_new_b mem) as [p' mem1] eqn:E. binds.
  apply parser_new_more in E. apply parser_drop_less in E0. rewrite E in E0. eapply plus_inj; exact E0.
Qed.

Lemma kept_worker j ws : forall k p cur, kept (worker_p j k p cur ws).
Proof.
  induction ws as [|[g1 g2 g3 extended s|g query cand rs|x| |] ws IH]; intros k p cur; cbn [worker_p].
  - constructor.
  - apply kept_pbind; [apply kept_parse_p|]. intros [b p']. apply IH.
  - destruct (match query with Some b => Some b | None => cur end) as [b|]; [|constructor]. apply kept_pbind; [apply kept_search|].
    intros [[d rs'] mb]. apply kept_pbind; [apply IH|]. constructor.
  - apply IH.
  - apply kept_pbind; [apply kept_renew_metric|]. auto.
  - apply kept_pbind; [apply kept_renew_parser|]. auto.
Qed.

Lemma kept_sched A (st st' : bmemory * list (prog A)) : Forall kept (snd st) -> sched st st' -> Forall kept (snd st') /\ allocated (fst st') = allocated (fst st).
Proof.
  intros F H. destruct H as [mem ts i t mem' t' Hi Hd E]. cbn [fst snd] in *.
  assert (K : kept t) by (rewrite Forall_forall in F; apply F; eapply nth_error_In; exact Hi).
  assert (G : kept t' /\ allocated mem' = allocated mem).
  { destruct K as [r|B op k Ho Hk]; [discriminate|]. cbn [thread_step] in E. destruct (op mem) as [[y mem1]| |] eqn:Eo; injection E as <- <-.
    - split; [apply Hk|eapply Ho; exact Eo].
    - split; [constructor|reflexivity].
    - split; [constructor|reflexivity]. }
  split; [|apply G]. rewrite Forall_forall in *. intros u Hu. apply In_nth_error in Hu as (n & Hn). rewrite nth_error_upd in Hn.
  destruct ((n =? i) && (i <? length ts)); [injection Hn as <-; apply G|apply F; eapply nth_error_In; exact Hn].
Qed.

Lemma kept_schedule A (st st' : bmemory * list (prog A)) : Forall kept (snd st) -> schedule st st' -> Forall kept (snd st') /\ allocated (fst st') = allocated (fst st).
Proof.
  intros F H. revert F. induction H as [st|st1 st2 st3 H IH H']; intros F; [auto|]. destruct (IH F) as [F2 E2]. destruct (kept_sched _ _ _ F2 H') as [F3 E3]. split; [exact F3|congruence].
Qed.

End WithUnicode.
