(** Specification vocabulary for C81: queries which ask for less. Nothing here is a model of code. *)
From Verif Require Import Prelude Chars Spec.

(** [part t t']: [t] is [t'] with any number of characters left out. *)
Inductive part : str -> str -> Prop :=
| part_nil : part [] []
| part_keep x t t' : part t t' -> part (x :: t) (x :: t')
| part_skip x t t' : part t t' -> part t (x :: t').

(** [asks_less k t k' t']: whatever a term of kind [k'] with text [t'] is found in, one of kind [k] with text [t] is
    found in as well. *)
Inductive asks_less : kind -> str -> kind -> str -> Prop :=
| al_same k t : asks_less k t k t
| al_fuzzy t t' : part t t' -> asks_less KFuzzy t KFuzzy t'
| al_exact u t v : asks_less KExact t KExact (u ++ t ++ v)
| al_prefix t v : asks_less KPrefix t KPrefix (t ++ v)
| al_suffix u t : asks_less KSuffix t KSuffix (u ++ t)
| al_kind k k' t : narrower k' k -> asks_less k t k' t
| al_trans k1 t1 k2 t2 k3 t3 : asks_less k1 t1 k2 t2 -> asks_less k2 t2 k3 t3 -> asks_less k1 t1 k3 t3.

(** The same for terms: the text of a negated term has to ask for more. *)
Definition weaker (t t' : term) : Prop :=
  t_neg t = t_neg t'
  /\ if t_neg t then asks_less (t_kind t') (t_text t') (t_kind t) (t_text t)
     else asks_less (t_kind t) (t_text t) (t_kind t') (t_text t').
