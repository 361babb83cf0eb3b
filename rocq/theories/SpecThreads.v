(** What is said about searches on several threads (Properties_threads.v). *)
From Verif Require Import Prelude Chars Utils Candidate MatchedRanges Query Parser Scoring Fzf Api History Borrows BorrowsMetric BorrowsThreads.
Local Open Scope nat_scope.

Section WithUnicode.
Context {UC : unicode}.

(** [answers a o c r]: [r] is what the search [c] returns, and leaves in the vector, if it is made with a
    metric of a program without other threads and without memory, after any other calls *)
Definition answers (a : algo) (o : options) (c : tcall) (r : option distance * list range) : Prop :=
  exists q,
    (if bl_extended (tc_loan c) then exists ps, parse parser_new (bl_string (tc_loan c)) = Ok (q, ps)
     else q = new_not_extended (bl_string (tc_loan c)))
    /\ forall m, metric_reached a o m ->
       match tc_ranges c with
       | None => snd r = [] /\ exists m', metric_distance m q (tc_cand c) = Ok (fst r, m')
       | Some buf => exists m', metric_distance_and_ranges m q (tc_cand c) buf = Ok (fst r, m', snd r)
       end.

End WithUnicode.

(** ** Memory which is only lent *)

(** Stacks which allow reading but not writing *)
Definition frozen (s : stack) : stack := filter (fun i => match i with Shr _ => true | Uniq _ => false end) s.

Definition frozen_buffer {A} (b : option (option (cells A))) : option (option (cells A)) :=
  option_map (option_map (map (fun c => (fst c, frozen (snd c))))) b.

(** [lent mem p a mem']: in [mem'], the buffer of characters at [a] is as in [mem], and the buffers of the parser [p] hold what
    they hold in [mem] and may be read by those who may read them in [mem], but not written by
    anybody. About the other buffers nothing is said: they may have been freed. *)
Record lent (mem : bmemory) (p : parser_b) (a : nat) (mem' : bmemory) : Prop := MkLent {
  lt_own : nth_error (hp (bm_chars mem')) a = nth_error (hp (bm_chars mem)) a;
  lt_chars : nth_error (hp (bm_chars mem')) (v_addr (pb_chars p)) = frozen_buffer (nth_error (hp (bm_chars mem)) (v_addr (pb_chars p)));
  lt_patterns : nth_error (hp (bm_patterns mem')) (v_addr (pb_patterns p)) = frozen_buffer (nth_error (hp (bm_patterns mem)) (v_addr (pb_patterns p)));
  lt_conditions : nth_error (hp (bm_conditions mem')) (v_addr (pb_conditions p))
    = frozen_buffer (nth_error (hp (bm_conditions mem)) (v_addr (pb_conditions p)))
}.

(** [owned mem p mem']: in [mem'], the buffers of the parser [p] are as in [mem]. The others may have been freed. *)
Record owned (mem : bmemory) (p : parser_b) (mem' : bmemory) : Prop := MkOwned {
  ow_chars : nth_error (hp (bm_chars mem')) (v_addr (pb_chars p)) = nth_error (hp (bm_chars mem)) (v_addr (pb_chars p));
  ow_patterns : nth_error (hp (bm_patterns mem')) (v_addr (pb_patterns p)) = nth_error (hp (bm_patterns mem)) (v_addr (pb_patterns p));
  ow_conditions : nth_error (hp (bm_conditions mem')) (v_addr (pb_conditions p)) = nth_error (hp (bm_conditions mem)) (v_addr (pb_conditions p))
}.

(** The memory in which all buffers have been freed, except for that of characters at [a] and those of the parser [p],
    which may only be read *)
Fixpoint with_index {A B} (f : nat -> A -> B) (i : nat) (l : list A) : list B :=
  match l with
  | [] => []
  | x :: l' => f i x :: with_index f (i + 1) l'
  end.

Definition frozen_at {A} (i : nat) (j : nat) (b : option (cells A)) : option (cells A) :=
  if j =? i then option_map (map (fun c => (fst c, frozen (snd c)))) b else None.

Definition only_these (mem : bmemory) (p : parser_b) (a : nat) : bmemory :=
  MkBMem
    (MkHeap (with_index (fun i b => if i =? a then b else frozen_at (v_addr (pb_chars p)) i b) 0 (hp (bm_chars mem))) (hp_tag (bm_chars mem)))
    (MkHeap (with_index (frozen_at (v_addr (pb_patterns p))) 0 (hp (bm_patterns mem))) (hp_tag (bm_patterns mem)))
    (MkHeap (with_index (frozen_at (v_addr (pb_conditions p))) 0 (hp (bm_conditions mem))) (hp_tag (bm_conditions mem))).
