(** Specification vocabulary for C102: the parts of the cost of a search. *)
From Verif Require Import Prelude Chars Query Fzf FzfV1 FzfV2 Api.

(** Making a vector of [have] elements [need] elements long, if it is shorter: the old elements may be moved, the
    new ones are written. *)
Definition growth (have need : nat) : nat := if (have <? need)%nat then need else 0.

(** Reading a candidate: every byte is looked at once, to see whether it is ASCII; if one is not, the characters are
    copied to a vector with room for [have] of them. *)
Definition reading_cost (have : nat) (c : str) : nat :=
  (byte_len c + (if forallb is_ascii c then 0 else growth have (byte_len c) + length c))%nat.
