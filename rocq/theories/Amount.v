(** Specification vocabulary for C103: how much a query can highlight. *)
From Verif Require Import Prelude Chars Spec.
Local Open Scope nat_scope.

(** The characters which a term stands for; an inverse term stands for none. *)
Definition term_chars (t : term) : nat :=
  if t_neg t then 0 else length (t_text t).

(** The pieces in which they can be found: a fuzzy term can be scattered over the candidate, others are found
    in one piece. *)
Definition term_pieces (t : term) : nat :=
  if t_neg t then 0
  else match t_kind t with
       | KFuzzy => length (t_text t)
       | _ => 1
       end.

(** One alternative of each condition counts. *)
Definition at_most (f : term -> nat) (q : cnf) : nat :=
  list_sum (map (fun alternatives => list_max (map f alternatives)) q).

(** The characters number [js] of [c] are highlighted by [rs], each in at least one byte. *)
Definition highlighted (c : str) (rs : list byte_range) (js : list nat) : Prop :=
  NoDup js /\ Forall (fun j => exists b, byte_of_char c j b /\ covered rs b) js.
