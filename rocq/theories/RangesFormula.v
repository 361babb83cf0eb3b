(** Specification vocabulary for C106: the parts of what highlighting costs. *)
From Verif Require Import Prelude Chars.

(** The comparisons of a binary search among [n] ranges. *)
Definition binary_probes (n : nat) : nat :=
  match n with
  | O => 0
  | _ => S (Nat.log2_up n)
  end.

(** How many ranges cover the characters at the positions [js], which ascend: neighbours share a range. *)
Fixpoint runs_of (js : list nat) : nat :=
  match js with
  | [] => 0
  | j :: t => ((if match t with k :: _ => (k =? S j)%nat | [] => false end then 0 else 1) + runs_of t)%nat
  end.

(** Adding the positions one by one, the first one first: each time the ranges of those before it are searched, and
    none has to be moved. *)
Definition appending (js : list nat) : nat :=
  list_sum (map (fun k => binary_probes (runs_of (firstn k js))) (seq 0 (length js))).

(** Adding the positions one by one, the last one first: each time the ranges of those behind it are searched, and
    unless the position is next to them, they are moved. *)
Fixpoint prepending (js : list nat) : nat :=
  match js with
  | [] => 0
  | j :: t =>
      (prepending t + binary_probes (runs_of t)
       + (if match t with k :: _ => (k =? S j)%nat | [] => false end then 0 else runs_of t))%nat
  end.

(** Finding the byte at which the character at position [j] starts: in ASCII it is known, otherwise the characters
    before it are visited. *)
Definition locating (c : str) (j : nat) : nat := if forallb is_ascii c then 0 else j.

(** Adding the range from [a] to [b] to [own]: they are searched, then those behind it are moved to make room, unless
    it is joined to one of them; when it joins two, those behind both close the gap. *)
Definition adding (own : list (nat * nat)) (r : nat * nat) : nat :=
  let '(a, b) := r in
  let behind := length (filter (fun x => a <? fst x) own) in
  let joins_left := existsb (fun x => (fst x <=? a) && (a <=? snd x)) own in
  let joins_right := existsb (fun x => (a <? fst x) && (fst x <=? b)) own in
  (binary_probes (length own)
   + if joins_left then (if joins_right then behind - 1 else 0)
     else if joins_right then 0 else behind)%nat.
