(** Specification vocabulary for C98: bytes of heap memory. *)
From Verif Require Import Prelude Chars Query Parser Fzf FzfV1 FzfV2 Api History.

Section WithUnicode.
Context {UC : unicode}.

(** The bytes which vectors of these lengths, with elements of these sizes, allocate when they are made. *)
Definition bytes_of (lengths sizes : list nat) : nat :=
  list_sum (map (fun x => fst x * snd x) (combine lengths sizes)).

(** The sizes of the elements of the vectors of a metric, if usize has [w] bytes: char has 4, Bonus
    (u8 and bool, /repo/src/metrics/fzf/slab.rs:24-27) has 2, Score (i64, distance.rs:1) has 8. *)
Definition element_sizes (w : nat) (a : algo) : list nat :=
  match a with AlgoV1 => [4] | AlgoV2 => [4; 2; w; w; 8] end.

(** [parser_fed n ps]: the parser has been given strings of at most [n] bytes only. *)
Inductive parser_fed (n : nat) : parser -> Prop :=
| pf_new : parser_fed n parser_new
| pf_parse ps s q ps' : parser_fed n ps -> byte_len s <= n -> parse ps s = Ok (q, ps') -> parser_fed n ps'
| pf_raw ps s q ps' : parser_fed n ps -> byte_len s <= n -> parse_not_extended ps s = Ok (q, ps') -> parser_fed n ps'.

End WithUnicode.
