(** Specification vocabulary for C91 and C92: queries as formulas, and mirror images. Nothing here is a model of code. *)
From Verif Require Import Prelude Chars Spec Typing.

(** * Queries as formulas of propositional logic

    The atoms are pairs of a kind and a text, [!] is negation, [|] is disjunction, and the conditions of a query
    are conjoined. A valuation says which atoms are true. *)
Definition valuation : Type := kind -> str -> bool.

Definition term_true (v : valuation) (t : term) : bool :=
  if t_neg t then negb (v (t_kind t) (t_text t)) else v (t_kind t) (t_text t).

Definition query_true (v : valuation) (q : cnf) : bool := forallb (existsb (term_true v)) q.

(** The atoms are not independent: where [^foo] is found, [foo] is. *)
Definition sensible (v : valuation) : Prop :=
  forall k t k' t', asks_less k t k' t' -> v k' t' = true -> v k t = true.

Definition entails (q q' : cnf) : Prop :=
  forall v, sensible v -> query_true v q = true -> query_true v q' = true.

(** The same truth table. *)
Definition same_table (q q' : cnf) : Prop := forall v, query_true v q = query_true v q'.

(** * Mirror images *)
Definition mirror_kind (k : kind) : kind :=
  match k with KPrefix => KSuffix | KSuffix => KPrefix | _ => k end.

Definition mirror_term (t : term) : term := Term (t_neg t) (mirror_kind (t_kind t)) (rev (t_text t)).

Definition mirror (q : cnf) : cnf := map (map mirror_term) q.
