(** Specification vocabulary for C96: lists ordered by their distances. *)
From Verif Require Import Prelude Chars.

(** Two lists, each with its smallest values first, put together into one. The element of the first list
    comes first when both lists begin with equal values. *)
Fixpoint merge_by {A D : Type} (le : D -> D -> bool) (xs : list (A * D)) : list (A * D) -> list (A * D) :=
  match xs with
  | [] => fun ys => ys
  | x :: xs' =>
      fix merge_x (ys : list (A * D)) : list (A * D) :=
        match ys with
        | [] => xs
        | y :: ys' => if le (snd x) (snd y) then x :: merge_by le xs' ys else y :: merge_x ys'
        end
  end.

(** [d] is not worse than [d']. *)
Definition not_after {D : Type} (cmp : D -> D -> comparison) (d d' : D) : bool :=
  match cmp d d' with Gt => false | _ => true end.
