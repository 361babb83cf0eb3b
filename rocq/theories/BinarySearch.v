(** slice::binary_search_by of the standard library, which matched_ranges.rs:55-60 calls: the loops of core, with the
    number of comparisons. There are two versions of them; which one is used depends on the version of
    the compiler. MatchedRanges.v has their documented contract instead ([search_start]); BinarySearchProofs.v shows that
    they meet it. *)
From Verif Require Import Prelude MatchedRanges.

(** The comparison of matched_ranges.rs:59: how the start of element [i] compares to [start]. *)
Definition compare_at (l : list range) (start i : nat) : res comparison :=
  let* r := idx l i in
  Ok (Nat.compare (fst r) start).

(** core::slice::binary_search_by from Rust 1.52 to 1.81:
    while left < right { let mid = left + size / 2; ...; size = right - left }. The comparison may be
    made without a bounds check; here it is an error to leave the slice. Called in matched_ranges.rs:59. *)
Fixpoint halving_loop (fuel : nat) (l : list range) (start left right : nat) : res (nat + nat) * nat :=
  match fuel with
  | O => (OutOfFuel, 0)
  | S fuel' =>
      if left <? right then
        let mid := left + (right - left) / 2 in
        match compare_at l start mid with
        | Ok Lt => let (r, n) := halving_loop fuel' l start (mid + 1) right in (r, S n)
        | Ok Gt => let (r, n) := halving_loop fuel' l start left mid in (r, S n)
        | Ok Eq => (Ok (inl mid), 1)
        | Panic => (Panic, 1)
        | OutOfFuel => (OutOfFuel, 1)
        end
      else (Ok (inr left), 0)
  end.

(** The whole function, called in matched_ranges.rs:59 *)
Definition halving (l : list range) (start : nat) : res (nat + nat) * nat :=
  halving_loop (S (length l)) l start 0 (length l).

(** core::slice::binary_search_by since Rust 1.82:
    while size > 1 { let half = size / 2; let mid = base + half; base = if cmp == Greater { base } else { mid }; size -= half } and one
    comparison at the end. Called in matched_ranges.rs:59. *)
Fixpoint branchless_loop (fuel : nat) (l : list range) (start base size : nat) : res nat * nat :=
  match fuel with
  | O => (OutOfFuel, 0)
  | S fuel' =>
      if 1 <? size then
        let half := size / 2 in
        let mid := base + half in
        match compare_at l start mid with
        | Ok c =>
            let base := match c with Gt => base | _ => mid end in
            let (r, n) := branchless_loop fuel' l start base (size - half) in (r, S n)
        | Panic => (Panic, 1)
        | OutOfFuel => (OutOfFuel, 1)
        end
      else (Ok base, 0)
  end.

(** The whole function, called in matched_ranges.rs:59 *)
Definition branchless (l : list range) (start : nat) : res (nat + nat) * nat :=
  match l with
  | [] => (Ok (inr 0), 0)
  | _ =>
      let (r, n) := branchless_loop (length l) l start 0 (length l) in
      (let* base := r in
       let* c := compare_at l start base in
       Ok (match c with
           | Eq => inl base
           | Lt => inr (base + 1)
           | Gt => inr base
           end), S n)
  end.
