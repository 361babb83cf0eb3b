(** Model of /repo/src/matched_ranges.rs. *)
From Verif Require Import Prelude.

(** Range<usize> as (start, end). *)
Notation range := (nat * nat)%type.

(** MatchedRanges, matched_ranges.rs:5-8: the user's buffer and its length when the call
    started. The [&mut Vec] is threaded through as a value. *)
Record mranges := MkRanges { mr_ranges : list range; mr_initial_len : nat }.

(** From<&mut Vec<..>>, matched_ranges.rs:10-16 *)
Definition mranges_from (buf : list range) : mranges := MkRanges buf (length buf).

(** The same MatchedRanges after a change of the Vec it refers to, matched_ranges.rs:6 *)
Definition with_ranges (m : mranges) (l : list range) : mranges :=
  MkRanges l (mr_initial_len m).

(** binary_search_by with key [start], matched_ranges.rs:55-60 and 71-73, by the documented
    contract of slice::binary_search_by on a slice sorted by distinct starts:
    [inl i] is Ok(i) (an element with that start), [inr i] is Err(i) (insertion
    point). *)
Fixpoint search_start (l : list range) (start : nat) (i : nat) : nat + nat :=
  match l with
  | [] => inr i
  | r :: t =>
      if fst r =? start then inl i
      else if start <? fst r then inr i
      else search_start t start (S i)
  end.

(** The call of lines 71-73, with the slice of matched_ranges.rs:59 *)
Definition binary_search_by (m : mranges) (start : nat) : res (nat + nat) :=
  let* l := slice_from (mr_ranges m) (mr_initial_len m) in
  Ok (search_start l start 0).

(** get_mut, matched_ranges.rs:64-66 *)
Definition mr_get (m : mranges) (i : nat) : option range :=
  nth_error (mr_ranges m) (mr_initial_len m + i).

(** Assignment through a reference to element [i] (fields start/end of the range at
    initial_len + i). matched_ranges.rs:93, 99, 113, 125, 148, 158, 168. *)
Definition mr_set (m : mranges) (i : nat) (r : range) : res mranges :=
  let* l := set_idx (mr_ranges m) (mr_initial_len m + i) r in
  Ok (with_ranges m l).

(** insert_at, matched_ranges.rs:185-187 (Vec::insert panics past the end) *)
Definition mr_insert_at (m : mranges) (i : nat) (r : range) : res mranges :=
  let k := mr_initial_len m + i in
  if k <=? length (mr_ranges m)
  then Ok (with_ranges m (firstn k (mr_ranges m) ++ r :: skipn k (mr_ranges m)))
  else Panic.

(** len, matched_ranges.rs:197-199 *)
Definition mr_len (m : mranges) : res nat :=
  usub (length (mr_ranges m)) (mr_initial_len m).

(** push, matched_ranges.rs:203-205 *)
Definition mr_push (m : mranges) (r : range) : mranges :=
  with_ranges m (mr_ranges m ++ [r]).

(** remove, matched_ranges.rs:209-211 (Vec::remove panics past the end) *)
Definition mr_remove (m : mranges) (i : nat) : res mranges :=
  let k := mr_initial_len m + i in
  if k <? length (mr_ranges m)
  then Ok (with_ranges m (firstn k (mr_ranges m) ++ skipn (S k) (mr_ranges m)))
  else Panic.

(** split_at_mut, matched_ranges.rs:215-223 *)
Definition mr_split_at (m : mranges) (i : nat) : res (list range * list range) :=
  let k := mr_initial_len m + i in
  if k <=? length (mr_ranges m) then
    let* lhs := slice_from (firstn k (mr_ranges m)) (mr_initial_len m) in
    Ok (lhs, skipn k (mr_ranges m))
  else Panic.

(** insert, matched_ranges.rs:70-181. References into the vector obtained from split_at_mut are
    read here and written back with [mr_set] at the same index. *)
Definition mr_insert (m : mranges) (new_range : range) : res mranges :=
  let* found := binary_search_by m (fst new_range) in
  match found with
  | inl i =>
      (* lines 77-102: same start *)
      let* '(lhs, rhs) := mr_split_at m (i + 1) in
      let* rng := idx lhs i in
      let next_range := nth_error rhs 0 in
      if snd new_range <=? snd rng then Ok m
      else
        match next_range with
        | Some nr =>
            if fst nr <=? snd new_range then
              let* m := mr_set m i (fst rng, snd nr) in
              mr_remove m (i + 1)
            else mr_set m i (fst rng, snd new_range)
        | None => mr_set m i (fst rng, snd new_range)
        end
  | inr insert_idx =>
      if insert_idx =? 0 then
        (* lines 105-119 *)
        match mr_get m 0 with
        | None => Ok (mr_push m new_range)
        | Some first_range =>
            if fst first_range <=? snd new_range
            then mr_set m 0 (fst new_range, snd first_range)
            else mr_insert_at m 0 new_range
        end
      else
        let* len := mr_len m in
        if insert_idx =? len then
          (* lines 121-131; last_mut, lines 191-193, is the last of the whole vector *)
          let* last_range := unwrap (nth_error (mr_ranges m) (length (mr_ranges m) - 1)) in
          if fst new_range <=? snd last_range
          then
            let* l := set_idx (mr_ranges m) (length (mr_ranges m) - 1)
                        (fst last_range, Nat.max (snd last_range) (snd new_range)) in
            Ok (with_ranges m l)
          else Ok (mr_push m new_range)
        else
          (* lines 133-180 *)
          let* '(lhs, rhs) := mr_split_at m insert_idx in
          let* prev_i := usub insert_idx 1 in
          let* prev_range := idx lhs prev_i in
          let* next_range := idx rhs 0 in
          match fst new_range <=? snd prev_range, fst next_range <=? snd new_range with
          | true, true =>
              let* m := mr_set m prev_i (fst prev_range, snd next_range) in
              mr_remove m insert_idx
          | true, false =>
              if snd prev_range <? snd new_range
              then mr_set m prev_i (fst prev_range, snd new_range)
              else Ok m
          | false, true => mr_set m insert_idx (fst new_range, snd next_range)
          | false, false => mr_insert_at m insert_idx new_range
          end
  end.
