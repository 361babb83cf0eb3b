(** Specification vocabulary for C105: the parts of the cost of parsing. *)
From Verif Require Import Prelude Chars Parser CostFormula Spec.
Local Open Scope nat_scope.

(** The spaces which separate words, or come before or after them *)
Definition separators (s : str) : nat :=
  length (filter (fun t => match t with Sep => true | Lit _ => false end) (tokens s)).

Definition ends_in_separator (s : str) : bool :=
  match last (tokens s) (Lit 0%N) with Sep => true | Lit _ => false end.

(** Characters looked at by a search for the first one which is such *)
Fixpoint examined (such : char -> bool) (t : str) : nat :=
  match t with
  | [] => 0
  | x :: t' => if such x then 1 else S (examined such t')
  end.

(** What is found out about the text of a term: is there an upper case letter; how many spaces are in front and at
    the end? *)
Definition term_cost {UC : unicode} (t : str) : nat :=
  examined is_uppercase t
  + examined (fun c => negb (c =? 32)%N) t
  + examined (fun c => negb (c =? 32)%N) (rev t).

(** Making the three buffers of a parser long enough for [n] bytes *)
Definition buffers_cost (ps : parser) (n : nat) : nat :=
  growth (length (ps_chars ps)) n
  + growth (length (ps_conditions ps)) (n / 2 + 1)
  + growth (length (ps_patterns ps)) (n / 2 + 1).

(** What is paid for the words and the conditions themselves *)
Definition words_overhead (words conditions : nat) (space_at_end : bool) : nat :=
  match words with
  | 0 => 2
  | _ => 4 * words + 1 + (if space_at_end then 1 else 0) + match conditions with 0 => 0 | S _ => conditions + 1 end
  end.
