(** Specification vocabulary for C44: where an alignment can cost more in the table of FzfV2. *)
From Verif Require Import Prelude.
Local Open Scope nat_scope.

(** [hit i j]: query character [i] agrees with candidate character [j]. How often a query character, from number
    [i] on, agrees with a character between its own position and that of the next query character, but not directly
    before the latter. *)
Fixpoint recurring (hit : nat -> nat -> bool) (i : nat) (ps : list nat) : nat :=
  match ps with
  | p :: ((j :: _) as ps') => length (filter (hit i) (seq (S p) (j - S (S p)))) + recurring hit (S i) ps'
  | _ => 0
  end.

(** How many of the positions are followed directly by the next. *)
Fixpoint adjacent (ps : list nat) : nat :=
  match ps with
  | p :: ((j :: _) as ps') => (if j =? S p then 1 else 0) + adjacent ps'
  | _ => 0
  end.
