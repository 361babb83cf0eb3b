(** Results with explicit panics, and the slice operations of Rust.

    Not a module of /repo: these are the primitives of the language and of core/alloc that
    the code under /repo/src uses everywhere (indexing, slicing, usize
    subtraction, Vec::resize). *)
From Coq Require Export List Arith NArith ZArith Bool Lia.
Export ListNotations.

(** Outcome of a Rust call: a value, a panic, or (model artefact) a loop which ran out of
    the fuel given to it by the model.
    Every call which may panic, e.g. parser.rs:176 (an index), query.rs:58 (expect), slab.rs:191 (debug_assert!). *)
Inductive res (A : Type) : Type :=
| Ok (a : A)
| Panic
| OutOfFuel.
Arguments Ok {A} _.
Arguments Panic {A}.
Arguments OutOfFuel {A}.

(** One statement after the other, in every function body; the rest of the body is skipped by a panic, e.g. parser.rs:130. *)
Definition bind {A B : Type} (x : res A) (f : A -> res B) : res B :=
  match x with
  | Ok a => f a
  | Panic => Panic
  | OutOfFuel => OutOfFuel
  end.

Notation "'let*' x ':=' c1 'in' c2" := (bind c1 (fun x => c2))
  (at level 200, x name, c1 at level 100, c2 at level 200, right associativity).
Notation "'let*' ' p ':=' c1 'in' c2" := (bind c1 (fun x => match x with p => c2 end))
  (at level 200, p strict pattern, c1 at level 100, c2 at level 200, right associativity).

(** [l[i]]. E.g. query.rs:173, fzf_v2.rs:524. *)
Definition idx {A : Type} (l : list A) (i : nat) : res A :=
  match nth_error l i with
  | Some a => Ok a
  | None => Panic
  end.

(** [l] with position [i] replaced (nothing changes when [i] is out of range). E.g. the effect of parser.rs:130. *)
Fixpoint upd {A : Type} (l : list A) (i : nat) (a : A) : list A :=
  match l, i with
  | [], _ => []
  | _ :: t, O => a :: t
  | x :: t, S i' => x :: upd t i' a
  end.

(** [l[i] = a]. E.g. parser.rs:130, 176, 204, 327; slab.rs:101. *)
Definition set_idx {A : Type} (l : list A) (i : nat) (a : A) : res (list A) :=
  if i <? length l then Ok (upd l i a) else Panic.

(** [&l[i..]]. E.g. query.rs:230, matched_ranges.rs:59. *)
Definition slice_from {A : Type} (l : list A) (i : nat) : res (list A) :=
  if i <=? length l then Ok (skipn i l) else Panic.

(** [&l[..i]]. E.g. parser.rs:135, slab.rs:68. *)
Definition slice_to {A : Type} (l : list A) (i : nat) : res (list A) :=
  if i <=? length l then Ok (firstn i l) else Panic.

(** [&l[a..b]]. E.g. parser.rs:269, 389. *)
Definition slice {A : Type} (l : list A) (a b : nat) : res (list A) :=
  if (a <=? b) && (b <=? length l) then Ok (firstn (b - a) (skipn a l))
  else Panic.

(** [a - b] on usize; underflow panics (overflow checks on). E.g. query.rs:235, matched_ranges.rs:198. *)
Definition usub (a b : nat) : res nat := if b <=? a then Ok (a - b) else Panic.

(** [debug_assert!]. slab.rs:191, 385; query.rs:221; utils.rs:12. *)
Definition assert_ (b : bool) : res unit := if b then Ok tt else Panic.

(** [Option::unwrap] / [Option::expect]. E.g. query.rs:58, fzf_v1.rs:322, matched_ranges.rs:122. *)
Definition unwrap {A : Type} (o : option A) : res A :=
  match o with
  | Some a => Ok a
  | None => Panic
  end.

(** [Vec::resize(n, d)] as used in the crate, i.e. only to grow. slab.rs:65, 95, 127, 194; parser.rs:91, 103, 107. *)
Definition grow {A : Type} (l : list A) (n : nat) (d : A) : list A :=
  l ++ repeat d (n - length l).

(** [iter.enumerate().find_map(|(i, x)| f(x).then_some(i))]. candidate.rs:299. *)
Fixpoint find_idx {A : Type} (f : A -> bool) (l : list A) : option nat :=
  match l with
  | [] => None
  | x :: t => if f x then Some 0 else option_map S (find_idx f t)
  end.

(** [iter.enumerate().rev().find_map(|(i, x)| f(x).then_some(i))]. candidate.rs:312. *)
Fixpoint find_last_idx {A : Type} (f : A -> bool) (l : list A) : option nat :=
  match l with
  | [] => None
  | x :: t =>
      match find_last_idx f t with
      | Some i => Some (S i)
      | None => if f x then Some 0 else None
      end
  end.

(** [iter.enumerate().filter(|(_, x)| f(x)).map(|(i, _)| off + i)]. candidate.rs:427. *)
Fixpoint all_idx {A : Type} (f : A -> bool) (l : list A) (off : nat) : list nat :=
  match l with
  | [] => []
  | x :: t => if f x then off :: all_idx f t (S off) else all_idx f t (S off)
  end.

(** [iter.take_while(f).count()]. candidate.rs:148, 152, 254, 258; query.rs:203, 206; utils.rs:49. *)
Fixpoint count_while {A : Type} (f : A -> bool) (l : list A) : nat :=
  match l with
  | [] => 0
  | x :: t => if f x then S (count_while f t) else 0
  end.
