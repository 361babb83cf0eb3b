(** What is said about memory which is allocated and freed (Properties_alloc.v). *)
From Verif Require Import Prelude Chars Borrows BorrowsMetric.
Local Open Scope nat_scope.

Section Counts.
Context {A : Type}.

(** How many things exist; [None] is one which has been dropped or freed *)
Fixpoint existing (l : list (option A)) : nat :=
  match l with
  | [] => 0
  | Some _ :: l' => 1 + existing l'
  | None :: l' => existing l'
  end.

End Counts.

(** How many buffers are allocated *)
Definition buffers {A} (h : bheap A) : nat := existing (hp h).

(** The numbers of the allocated buffers of characters, of patterns and of conditions *)
Definition allocated (mem : bmemory) : nat * nat * nat := (buffers (bm_chars mem), buffers (bm_patterns mem), buffers (bm_conditions mem)).

(** The address is that of an allocated buffer *)
Definition is_allocated {A} (h : bheap A) (a : nat) : Prop := exists l, nth_error (hp h) a = Some (Some l).
