(** Model of /repo/src/metrics/fzf/slab.rs. Not modelled: the Debug printer of Matrix (lines
    216-305) and printed_width. A [&mut] slice of a Vec is modelled by its content;
    [put_back] stores the final content of the slice in the Vec. *)
From Verif Require Import Prelude Chars Scoring.

(** Bonus, slab.rs:24-27 *)
Record bonus := MkBonus { b_value : N; b_is_set : bool }.

(** Default for Bonus, slab.rs:22-27 *)
Definition default_bonus : bonus := MkBonus 0 false.

(** Bonus::set, slab.rs:36-39: [value as u8] *)
Definition bonus_set (value : score) : bonus := MkBonus (Z.to_N (value mod 256)) true.

(** Bonus::value, slab.rs:42-44 *)
Definition bonus_value (b : bonus) : score := Z.of_N (b_value b).

(** Content of a Vec after its first elements were changed through a slice.
    The slices of slab.rs:68-74, 130, 197-201 borrow the Vec. *)
Definition put_back {A : Type} (sl vec : list A) : list A := sl ++ skipn (length sl) vec.

(** BonusSlab::alloc, slab.rs:63-75: the slice and the Vec. *)
Definition bonus_alloc (vec : list bonus) (len : nat) : res (list bonus * list bonus) :=
  let vec := if length vec <? len then grow vec len default_bonus else vec in
  let* sl := slice_to vec len in
  let sl := map (fun b => MkBonus (b_value b) false) sl in
  Ok (sl, put_back sl vec).

(** The loop of CandidateSlab::alloc, slab.rs:100-103 *)
Fixpoint chars_fill (chars : list char) (char_len : nat) (text : str)
  : res (list char * nat) :=
  match text with
  | [] => Ok (chars, char_len)
  | c :: text' =>
      let* chars := set_idx chars char_len c in
      chars_fill chars (char_len + 1) text'
  end.

(** CandidateSlab::alloc, slab.rs:93-106 *)
Definition candidate_alloc (chars : list char) (text : str) : res (list char * list char) :=
  let chars := if length chars <? byte_len text then grow chars (byte_len text) 0%N
               else chars in
  let* '(chars, char_len) := chars_fill chars 0 text in
  let* sl := slice_to chars char_len in
  Ok (sl, chars).

(** MatchedIndicesSlab::alloc, slab.rs:125-131 *)
Definition indices_alloc (vec : list nat) (len : nat) : res (list nat * list nat) :=
  let vec := if length vec <? len then grow vec len 0 else vec in
  let* sl := slice_to vec len in
  Ok (sl, vec).

(** Matrix, slab.rs:206-214 *)
Record matrix (A : Type) := MkMatrix { m_slice : list A; m_height : nat; m_width : nat }.
Arguments MkMatrix {A} _ _ _.
Arguments m_slice {A} _.
Arguments m_height {A} _.
Arguments m_width {A} _.

(** MatrixSlab::alloc, slab.rs:190-202; [fill] is MatrixItem::fill, 0 in both instances
    (lines 142-170). Returns the matrix and the Vec. *)
Definition matrix_alloc {A : Type} (fill : A) (vec : list A) (width height : nat)
  : res (matrix A * list A) :=
  let* _ := assert_ (0 <? height * width) in
  let vec := if length vec <? height * width then grow vec (height * width) fill else vec in
  let* sl := slice_to vec (height * width) in
  let sl := map (fun _ => fill) sl in
  Ok (MkMatrix sl height width, put_back sl vec).

(** Matrix::row_mut, slab.rs:357-361 *)
Definition row_mut {A : Type} (m : matrix A) (row : nat) : res (list A) :=
  let start := row * m_width m in
  slice (m_slice m) start (start + m_width m).

(** Write a row obtained from row_mut / two_rows_mut back. slab.rs:357-361, 380-400. *)
Definition put_row {A : Type} (m : matrix A) (row : nat) (l : list A) : matrix A :=
  let start := row * m_width m in
  MkMatrix (firstn start (m_slice m) ++ l ++ skipn (start + length l) (m_slice m))
    (m_height m) (m_width m).

(** Matrix::two_rows_mut, slab.rs:380-394 *)
Definition two_rows_mut {A : Type} (m : matrix A) (row_a row_b : nat)
  : res (list A * list A) :=
  let* _ := assert_ (row_a <? row_b) in
  let start_b := row_b * m_width m in
  let* part_a := slice_to (m_slice m) start_b in
  let* part_b := slice_from (m_slice m) start_b in
  let start_a := row_a * m_width m in
  let* ra := slice part_a start_a (start_a + m_width m) in
  let* rb := slice_to part_b (m_width m) in
  Ok (ra, rb).

(** Index<MatrixCell>, slab.rs:413-420; a MatrixCell is its flat index (line 411). *)
Definition m_index {A : Type} (m : matrix A) (cell : nat) : res A := idx (m_slice m) cell.

(** Matrix::get_value, slab.rs:310-312 *)
Definition m_get_value {A : Type} (m : matrix A) (cell : nat) : option A :=
  nth_error (m_slice m) cell.

(** Matrix::col_of, slab.rs:318-320; a zero width is a division by zero *)
Definition col_of {A : Type} (m : matrix A) (cell : nat) : res nat :=
  let* _ := assert_ (0 <? m_width m) in Ok (cell mod m_width m).

(** Matrix::row_of, slab.rs:351-353 *)
Definition row_of {A : Type} (m : matrix A) (cell : nat) : res nat :=
  let* _ := assert_ (0 <? m_width m) in Ok (cell / m_width m).

(** Matrix::down_right, slab.rs:333-335 *)
Definition down_right {A : Type} (m : matrix A) (cell : nat) : nat := cell + m_width m + 1.

(** Matrix::left, slab.rs:345-347 *)
Definition cell_left (cell : nat) : res nat := usub cell 1.

(** Matrix::up_left, slab.rs:397-399 *)
Definition up_left {A : Type} (m : matrix A) (cell : nat) : res nat :=
  let* x := usub cell (m_width m) in usub x 1.

(** V2Slab, slab.rs:8-20 *)
Record v2_slab := MkV2Slab {
  s_bonus : list bonus;
  s_consecutive : list nat;
  s_indices : list nat;
  s_scoring : list score
}.

(** Default for V2Slab, slab.rs:7, 53-58, 115-120, 178-185 *)
Definition v2_slab_new : v2_slab :=
  MkV2Slab (repeat default_bonus 128) (repeat 0 256) (repeat 0 128) (repeat 0%Z 256).

(** Default for CandidateSlab, slab.rs:84-89 *)
Definition candidate_slab_new : list char := repeat 0%N 128.
