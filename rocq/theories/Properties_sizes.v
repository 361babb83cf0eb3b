(** Property C98: the memory of new metrics and parsers. See Properties_results.v for the conventions, Sizes.v
    for what the numbers mean. *)
From Coq Require Import String.
From Verif Require Import Prelude Chars Normalize Utils Candidate Query Parser Scoring Slab Fzf FzfV1 FzfV2 Api Usage History Spec Sizes.
From Verif Require Import Claims1 Claims30 ExampleKit.
Local Open Scope nat_scope.

(** ** C98. Short candidates and queries need no more memory than a new metric has *)

(** FzfV1::new allocates 512 bytes, as documented, whatever the size [w] of usize. FzfV2::new ("around 5kb")
    allocates 512 bytes for characters and the rest for the slab. *)
Theorem C98_new : forall w,
  bytes_of (buffers (metric_new AlgoV1)) (element_sizes w AlgoV1) = 512
  /\ bytes_of (buffers (metric_new AlgoV2)) (element_sizes w AlgoV2) = 512 + (256 + 256 * w + 128 * w + 2048).
Proof. exact (@c98_new). Qed.
Print Assumptions C98_new.

(** Without the characters of the candidate this is the documented 5.25kb on a 64-bit system; on a 32-bit system
    it is 3.75kb (slab.rs:5-6 says 4.25kb). *)
Theorem C98_slab :
  let slab w := bytes_of (tl (buffers (metric_new AlgoV2))) (tl (element_sizes w AlgoV2)) in
  slab 8 * 4 = 21 * 1024 /\ slab 4 * 4 = 15 * 1024.
Proof. exact (@c98_slab). Qed.
Print Assumptions C98_slab.

(** A metric which has only seen candidates of up to 128 bytes, and in the case of FzfV2 queries of up to 128
    characters with at most 256 cells of the matrix, has the buffers which it was made with. *)
Theorem C98_short : forall (UC : unicode) a n h m, metric_fed a n h m -> n <= 128 -> (a = AlgoV2 -> h <= 128 /\ h * n <= 256) ->
  buffers m = buffers (metric_new a).
Proof. exact (@c98_short). Qed.
Print Assumptions C98_short.

(** A parser which has only seen strings of up to 64 bytes has room for 64 characters, terms and conditions. *)
Theorem C98_parser : forall (UC : unicode) ps, parser_fed 64 ps -> parser_buffers ps = [64; 64; 64].
Proof. exact (@c98_parser). Qed.
Print Assumptions C98_parser.

(** Candidates and queries at the limits, and just above them. *)
Example C98_example (UC := latin) :
  let after a c := searched (metric_new a) (txt "ab") c in
  let cand n := repeat 233%N n in
  metric_fed AlgoV1 128 2 (after AlgoV1 (cand 64))
  /\ buffers (after AlgoV1 (cand 64)) = [128] /\ buffers (after AlgoV1 (cand 65)) = [130]
  /\ metric_fed AlgoV2 128 2 (after AlgoV2 (97%N :: repeat 98%N 127))
  /\ buffers (after AlgoV2 (97%N :: repeat 98%N 127)) = [128; 128; 256; 128; 256]
  /\ buffers (after AlgoV2 (97%N :: repeat 98%N 128)) = [128; 129; 258; 128; 258]
  /\ parser_fed 64 (parsed parser_new (repeat 97%N 64))
  /\ parser_buffers (parsed parser_new (repeat 97%N 64)) = [64; 64; 64]
  /\ parser_buffers (parsed parser_new (repeat 97%N 65)) = [65; 64; 64].
Proof.
  assert (F : forall a c, byte_len c <= 128 -> metric_fed a 128 2 (searched (metric_new a) (txt "ab") c)).
  { intros a c Hc. apply (mf_search a 128 2 (metric_new a) (the_query (txt "ab")) c).
    - constructor.
    - exists parser_new, (txt "ab"). eexists. split; [constructor|]. split; [vm_compute; repeat constructor|].
      left. vm_compute. reflexivity.
    - exact Hc.
    - eapply searched_searches. constructor. }
  cbv zeta. split; [apply F; apply Nat.leb_le; vm_compute; reflexivity|].
  split; [vm_compute; reflexivity|]. split; [vm_compute; reflexivity|].
  split; [apply F; apply Nat.leb_le; vm_compute; reflexivity|].
  split; [vm_compute; reflexivity|]. split; [vm_compute; reflexivity|].
  split.
  { apply (pf_parse 64 parser_new (repeat 97%N 64) (the_query (repeat 97%N 64))); [constructor| |vm_compute; reflexivity].
    apply Nat.leb_le; vm_compute; reflexivity. }
  split; vm_compute; reflexivity.
Qed.
