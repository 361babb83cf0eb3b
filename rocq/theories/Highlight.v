(** A program which displays a candidate with the ranges of a search highlighted, as the documentation of
    distance_and_ranges (/repo/src/metric.rs:62-92) suggests. The repository has no such program; the operations on
    strings are those of core, on the bytes of the string. *)
From Verif Require Import Prelude Chars.
Local Open Scope nat_scope.

(** [&s[x..y]] on a str given by its bytes: panics unless both ends are char boundaries, in order. *)
Definition str_range (b : list N) (x y : nat) : res (list N) :=
  if (x <=? y) && is_char_boundary b x && is_char_boundary b y then Ok (firstn (y - x) (skipn x b)) else Panic.

(** [let mut last = 0;
     for range in ranges { plain(&s[last..range.start]); highlighted(&s[range]); last = range.end; }
     plain(&s[last..]);]
    The pieces in the order in which they are shown, the highlighted ones with [true]. *)
Fixpoint show_pieces (b : list N) (last : nat) (ranges : list (nat * nat)) : res (list (bool * list N)) :=
  match ranges with
  | [] => let* t := str_from b last in Ok [(false, t)]
  | (x, y) :: ranges =>
      let* plain := str_range b last x in
      let* highlighted := str_range b x y in
      let* pieces := show_pieces b y ranges in
      Ok ((false, plain) :: (true, highlighted) :: pieces)
  end.

(** The pieces are the UTF-8 texts [ts]. *)
Definition shows (c : str) (ranges : list (nat * nat)) (ts : list (bool * str)) : Prop :=
  show_pieces (encode c) 0 ranges = Ok (map (fun t => (fst t, encode (snd t))) ts).

(** The text of all pieces, and that of the highlighted ones. *)
Definition shown_text (ts : list (bool * str)) : str := concat (map snd ts).
Definition highlighted_texts (ts : list (bool * str)) : list str := map snd (filter fst ts).
