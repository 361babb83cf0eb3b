(** Specification vocabulary for C87_rules. *)
From Verif Require Import Prelude Borrows.
Local Open Scope nat_scope.

Definition item_tag (i : item) : nat :=
  match i with
  | Uniq t => t
  | Shr t => t
  end.

(** No stack mentions a tag which has not been given to a reference yet. *)
Definition fresh {A} (h : bheap A) : Prop :=
  forall l x s i, In (Some l) (hp h) -> In (x, s) l -> In i s -> item_tag i < hp_tag h.
