(** Properties C87 and C88: the rules of Rust on aliasing, and panics which are caught. See Properties_results.v for the conventions. *)
From Coq Require Import String.
From Verif Require Import Prelude Chars Normalize Utils Candidate Query Parser Scoring Fzf Api History MemoryMetric Borrows BorrowsMetric Spec.
From Verif Require Import BorrowsMetricProofs Claims1 Claims24 Claims38 BorrowRules ExampleKit.
Local Open Scope nat_scope.

(** ** C87. The unsafe blocks keep the rules on aliasing *)

(** The unsafe blocks of the library change the lifetimes of references. That references are not dangling (C66, C84) is not
    enough for this to be sound: an access through a reference is also forbidden if what it points to has been written through
    another path since. Borrows.v and BorrowsMetric.v have the parser and the metrics with the rules of Stacked Borrows: each element of a buffer
    has a stack of the tags which may access it, and an access with another tag is [Panic]. [bprogram_reached] are the states of
    all programs which create, clone, drop and use any number of parsers and metrics, [bw_loans] the queries which the borrow checker lets them use.
    When buffers grow, the growth is within the buffer's capacity, in place or by moving, as [growth] says.

    Every search returns, and returns what a metric without memory returns. *)
Theorem C87_search : forall (UC : unicode) g i k b gr cand buf m,
  bprogram_reached g -> nth_error (bp_metrics g) i = Some (Some k) -> In b (bw_loans (bp_world g)) ->
  metric_reached (bo_algo k) (bo_options k) m ->
  exists q d new m1 m2 mb1 mem1 mb2 mem2,
    (if bl_extended b then exists ps, parse parser_new (bl_string b) = Ok (q, ps) else q = new_not_extended (bl_string b))
    /\ metric_distance m q cand = Ok (d, m1)
    /\ metric_distance_and_ranges m q cand buf = Ok (d, m2, buf ++ new)
    /\ metric_distance_b gr (bw_mem (bp_world g)) (bo_metric k) (bl_query b) cand = Ok (d, mb1, mem1)
    /\ metric_distance_and_ranges_b gr (bw_mem (bp_world g)) (bo_metric k) (bl_query b) cand buf = Ok (d, mb2, mem2, buf ++ new).
Proof. exact (@c87_search). Qed.
Print Assumptions C87_search.

(** Every query in use may be read, reads as what was parsed, and reading it takes no right from anybody. *)
Theorem C87_queries : forall (UC : unicode) g b,
  bprogram_reached g -> In b (bw_loans (bp_world g)) ->
  exists q, read_query_b (bw_mem (bp_world g)) (bl_query b) = Ok (q, bw_mem (bp_world g))
    /\ if bl_extended b then exists ps, parse parser_new (bl_string b) = Ok (q, ps) else q = new_not_extended (bl_string b).
Proof. exact (@c87_queries). Qed.
Print Assumptions C87_queries.

(** No other call makes an access which is forbidden: parsing, cloning and dropping return. (parse_not_extended
    panics if the string has more characters than the buffer, which has at least 64: C15.) *)
Theorem C87_calls : forall (UC : unicode) g,
  bprogram_reached g ->
  (forall i k, nth_error (bp_metrics g) i = Some (Some k) ->
       (exists r, metric_clone_b (bw_mem (bp_world g)) (bo_metric k) = Ok r)
       /\ (exists r, metric_drop_b (bw_mem (bp_world g)) (bo_metric k) = Ok r))
  /\ (forall i p, nth_error (bw_parsers (bp_world g)) i = Some (Some p) ->
       (forall g1 g2 g3 s, exists r, parse_b g1 g2 g3 (bw_mem (bp_world g)) p s = Ok r)
       /\ (exists r, parser_clone_b (bw_mem (bp_world g)) p = Ok r)
       /\ (exists r, parser_drop_b (bw_mem (bp_world g)) p = Ok r)
       /\ (forall s, (exists r, parse_not_extended_b (bw_mem (bp_world g)) p s = Ok r)
             <-> exists l, cells_at (bm_chars (bw_mem (bp_world g))) (v_addr (pb_chars p)) = Ok l /\ length s <= length l)
       /\ (exists l, cells_at (bm_chars (bw_mem (bp_world g))) (v_addr (pb_chars p)) = Ok l /\ 64 <= length l)).
Proof. exact (@c87_calls). Qed.
Print Assumptions C87_calls.

(** The rules do forbid something. In a memory in which no stack mentions a tag which is yet to be given ([fresh]), let [r] be the non-empty slice [&v[i..j]] of a Vec. As soon as the Vec has been borrowed
    mutably, or one of its elements has been assigned to, whichever it is, or the Vec has been dropped, or its buffer has been replaced by a larger one, [r] may not be read. *)
Theorem C87_forbidden : forall A (h : bheap A) v i j r h1, fresh h -> vec_slice h v i j = Ok (r, h1) -> i < j ->
  (forall w h2, vec_mut h1 v = Ok (w, h2) -> read h2 r = Panic)
  /\ (forall k x h2, vec_set h1 v k x = Ok h2 -> read h2 r = Panic)
  /\ (forall h2, vec_drop h1 v = Ok h2 -> read h2 r = Panic)
  /\ (forall g l n d v2 h2, cells_at h1 (v_addr v) = Ok l -> length l < n -> g <> Within ->
        vec_grow g h1 v n d = Ok (v2, h2) -> read h2 r = Panic).
Proof. exact (@c87_forbidden). Qed.
Print Assumptions C87_forbidden.

(** Of two mutable references to the elements of a Vec only the second may be used. *)
Theorem C87_exclusive : forall A (h : bheap A) v w h1 w2 h2 k x, fresh h -> vec_mut h v = Ok (w, h1) -> 0 < b_len w ->
  vec_mut h1 v = Ok (w2, h2) -> write h2 w k x = Panic /\ read h2 w = Panic.
Proof. exact (@c87_exclusive). Qed.
Print Assumptions C87_exclusive.

(** All states of all programs are such memories. *)
Theorem C87_fresh : forall (UC : unicode) g, bprogram_reached g ->
  fresh (bm_chars (bw_mem (bp_world g))) /\ fresh (bm_patterns (bw_mem (bp_world g))) /\ fresh (bm_conditions (bw_mem (bp_world g))).
Proof. exact (@c87_fresh). Qed.
Print Assumptions C87_fresh.

(** A program with two parsers and three metrics, whose buffers grow in all three ways. A parser is cloned while its query is in use, and the
    query is read and used afterwards. *)
Example C87_example (UC := latin) :
  let long := repeat 233%N 70 ++ txt "foo bar" in
  let calls := [BNew AlgoV2; BParser; BParse 0 Moved Moved Moved (txt "fo 'bar | x"); BParserClone 0; BRead 0; BNew AlgoV1;
    BRanges 0 Moved 0 long []; BClone 0; BSet 2 (SetCase Sensitive); BDrop 0; BDistance 2 Within 0 long; BRanges 1 InPlace 0 long [];
    BParse 1 InPlace Within Moved (repeat 97%N 90 ++ txt " ob"); BRead 1; BParseNotExtended 0 (txt "ob"); BRanges 2 Within 0 long [(1, 2)]] in
  exists g rs, brun calls start_bprogram = Some (g, rs) /\ bprogram_reached g
    /\ rs = [(Some (Distance 124), [(140, 142); (144, 147)]); (Some (Distance 124), []); (Some (Distance 124), [(140, 142); (144, 147)]);
             (Some (Distance 39), [(1, 2); (142, 143); (144, 145)])]
    /\ all_queries g = [Ok (new_not_extended (txt "ob")); Ok (the_query (repeat 97%N 90 ++ txt " ob"))].
Proof.
  intros long calls.
  assert (K : option_map (fun x => (snd x, all_queries (fst x))) (brun calls start_bprogram)
    = Some ([(Some (Distance 124), [(140, 142); (144, 147)]); (Some (Distance 124), []); (Some (Distance 124), [(140, 142); (144, 147)]);
             (Some (Distance 39), [(1, 2); (142, 143); (144, 145)])],
            [Ok (new_not_extended (txt "ob")); Ok (the_query (repeat 97%N 90 ++ txt " ob"))])) by (vm_compute; reflexivity).
  destruct (brun calls start_bprogram) as [[g rs]|] eqn:E; [|discriminate K].
  exists g, rs. pose proof (brun_reached _ _ _ _ bpr_start E) as R. cbn [option_map fst snd] in K. injection K as K1 K2.
  split; [reflexivity|]. split; [exact R|]. split; assumption.
Qed.

(** The rules are stricter than those of Memory.v. A query is read; then the same character is written again where
    it is, through the Vec. The memory holds what it held, but the query may not be read any more: *)
Example C87_overwritten (UC := latin) :
  exists g p h, option_map fst (brun [BParser; BParse 0 Within Within Within (txt "ab")] start_bprogram) = Some g
    /\ nth_error (bw_parsers (bp_world g)) 0 = Some (Some p)
    /\ vec_set (bm_chars (bw_mem (bp_world g))) (pb_chars p) 0 97%N = Ok h
    /\ all_queries g = [Ok (the_query (txt "ab"))]
    /\ all_queries (MkBProgram (MkBWorld (set_chars (bw_mem (bp_world g)) h) [Some p] (bw_loans (bp_world g))) []) = [Panic]
    /\ (let* l := cells_at (bm_chars (bw_mem (bp_world g))) 0 in Ok (map fst l)) = (let* l := cells_at h 0 in Ok (map fst l)).
Proof.
  eexists _, _, _. split; [vm_compute; reflexivity|]. split; [vm_compute; reflexivity|]. split; [vm_compute; reflexivity|].
  split; [vm_compute; reflexivity|]. split; vm_compute; reflexivity.
Qed.

(** A parser which wrote its words through the Vec, rather than through the one slice the iterator has, would lose the first
    word when it writes the second: *)
Example C87_through_vec :
  let '(v, h) := vec_new (MkHeap [] 0) (repeat 0%N 4) in
  (let* h := vec_set h v 0 97%N in let* '(r, h) := vec_slice h v 0 1 in let* '(t, h) := read h r in Ok t) = Ok [97%N]
  /\ (let* h := vec_set h v 0 97%N in let* '(r, h) := vec_slice h v 0 1 in let* h := vec_set h v 1 98%N in read h r) = Panic
  /\ (let* '(w, h) := vec_mut h v in let* h := write h w 0 97%N in let* '(r, h) := subslice h w 0 1 in let* h := write h w 1 98%N in
      let* '(t, h) := read h r in Ok t) = Ok [97%N].
Proof. vm_compute. auto. Qed.

(** ** C88. A parser whose panic was caught can still be used *)

(** parse_not_extended panics if the string has more than [n] characters, where [n] is the larger of 64 and the byte lengths of all strings which
    were given to parse (C15). If the caller catches the panic, the parser is [parse_not_extended_caught ps s], with part of the string
    in its buffer. It still parses every string as a new parser does, and parse_not_extended accepts the strings which it would have accepted before. The theorems
    about [parser_reached] parsers, [query_reached] queries and about programs (C66, C84, C87) are about programs which catch such panics, too. *)
Theorem C88_parser : forall (UC : unicode) n ps s, parser_with_room n ps -> parse_not_extended ps s = Panic ->
  let ps' := parse_not_extended_caught ps s in
  (forall s', exists q p1 p2, parse ps' s' = Ok (q, p1) /\ parse parser_new s' = Ok (q, p2))
  /\ (forall s', length s' <= n -> exists p1, parse_not_extended ps' s' = Ok (new_not_extended s', p1))
  /\ (forall s', n < length s' -> parse_not_extended ps' s' = Panic).
Proof. exact (@c88_parser). Qed.
Print Assumptions C88_parser.

(** In a program with any number of parsers and metrics, whose memory has the rules of Stacked Borrows, the program can go on after such a panic (so that
    all searches return, by [C87_search]), the queries of the other parsers read as they did, and the
    parser parses every string as a new parser does. *)
Theorem C88_program : forall (UC : unicode) w ms i p s, bprogram_reached (MkBProgram w ms) ->
  nth_error (bw_parsers w) i = Some (Some p) -> parse_not_extended_b (bw_mem w) p s = Panic ->
  let mem' := parse_not_extended_caught_b (bw_mem w) p s in
  bprogram_reached (MkBProgram (MkBWorld mem' (bw_parsers w) (other_bloans i (bw_loans w))) ms)
  /\ (forall b, In b (bw_loans w) -> bl_parser b <> i -> exists q,
        read_query_b (bw_mem w) (bl_query b) = Ok (q, bw_mem w) /\ read_query_b mem' (bl_query b) = Ok (q, mem'))
  /\ (forall g1 g2 g3 s', exists qb p' mem'' q ps,
        parse_b g1 g2 g3 mem' p s' = Ok (qb, p', mem'')
        /\ read_query_b mem'' qb = Ok (q, mem'') /\ parse parser_new s' = Ok (q, ps)).
Proof. exact (@c88_program). Qed.
Print Assumptions C88_program.

(** 70 characters do not fit into the 64 of a new parser. The first 64 stay in the buffer; then the parser works as before. *)
Example C88_example (UC := latin) :
  let long := repeat 233%N 70 in
  parser_with_room 64 parser_new
  /\ parse_not_extended parser_new long = Panic
  /\ ps_chars (parse_not_extended_caught parser_new long) = repeat 233%N 64
  /\ (exists p1, parse (parse_not_extended_caught parser_new long) (txt "fo 'bar | x") = Ok (the_query (txt "fo 'bar | x"), p1))
  /\ exists g rs, brun [BNew AlgoV2; BParser; BParser; BParse 1 Within Within Within (txt "'bar"); BParseNotExtended 0 long;
         BRanges 0 Within 0 (txt "foo bar") []; BParseNotExtended 0 (txt "ob"); BRanges 0 Within 0 (txt "foo bar") []] start_bprogram = Some (g, rs)
       /\ bprogram_reached g
       /\ rs = [(Some (Distance 88), [(4, 7)]); (Some (Distance 39), [(2, 3); (4, 5)])]
       /\ all_queries g = [Ok (new_not_extended (txt "ob")); Ok (the_query (txt "'bar"))].
Proof.
  intros long. split; [constructor|]. split; [reflexivity|]. split; [vm_compute; reflexivity|].
  split; [eexists; vm_compute; reflexivity|]. set (calls := [BNew AlgoV2; _; _; _; _; _; _; _]).
  assert (K : option_map (fun x => (snd x, all_queries (fst x))) (brun calls start_bprogram)
    = Some ([(Some (Distance 88), [(4, 7)]); (Some (Distance 39), [(2, 3); (4, 5)])],
            [Ok (new_not_extended (txt "ob")); Ok (the_query (txt "'bar"))])) by (vm_compute; reflexivity).
  destruct (brun calls start_bprogram) as [[g rs]|] eqn:E; [|discriminate K].
  exists g, rs. pose proof (brun_reached _ _ _ _ bpr_start E) as R. cbn [option_map fst snd] in K. injection K as K1 K2.
  split; [reflexivity|]. split; [exact R|]. split; assumption.
Qed.
