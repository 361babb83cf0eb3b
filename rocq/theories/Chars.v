(** Characters, strings and UTF-8: the parts of core::char and core::str used by the crate. *)
From Coq Require Import String Ascii.
From Verif Require Import Prelude.
Local Open Scope N_scope.

(** A Rust [char] is a Unicode scalar value. The model does not enforce the upper bound or the
    surrogate gap; every theorem also holds for values outside. *)
Notation char := N.

(** A Rust [&str] seen as the sequence of its chars. *)
Notation str := (list N).

(** Literals for examples: the chars of an ASCII string. Not in /repo. *)
Fixpoint str_of (s : string) : str :=
  match s with
  | EmptyString => []
  | String a t => N_of_ascii a :: str_of t
  end.

(** A character literal, for examples; not in /repo. *)
Definition ch (a : ascii) : char := N_of_ascii a.

(** The literal b' ', e.g. utils.rs:49, parser.rs:355. *)
Definition SPACE : char := 32.
(** The literal b'\\', parser.rs:358. *)
Definition BACKSLASH : char := 92.

(** [char::is_ascii], [u8::is_ascii]. scoring.rs:31; candidate.rs:76, 105, 128, 357. *)
Definition is_ascii (c : char) : bool := c <? 128.

(** [char::is_ascii_lowercase]. scoring.rs:41. *)
Definition is_ascii_lowercase (c : char) : bool := (97 <=? c) && (c <=? 122).

(** [char::is_ascii_uppercase]. scoring.rs:43. *)
Definition is_ascii_uppercase (c : char) : bool := (65 <=? c) && (c <=? 90).

(** [char::is_ascii_digit]. scoring.rs:45. *)
Definition is_ascii_digit (c : char) : bool := (48 <=? c) && (c <=? 57).

(** [u8::is_ascii_alphabetic]. candidate.rs:270, 283, 363. *)
Definition is_ascii_alphabetic (c : char) : bool :=
  is_ascii_lowercase c || is_ascii_uppercase c.

(** [char::is_ascii_whitespace]: U+0020, U+0009, U+000A, U+000C, U+000D. scoring.rs:47. *)
Definition is_ascii_whitespace (c : char) : bool :=
  (c =? 32) || (c =? 9) || (c =? 10) || (c =? 12) || (c =? 13).

(** [char::to_ascii_lowercase]. Used by [eq_ignore_ascii_case], utils.rs:18. *)
Definition to_ascii_lowercase (c : char) : char :=
  if is_ascii_uppercase c then c + 32 else c.

(** [char::eq_ignore_ascii_case]. utils.rs:18, 23. *)
Definition eq_ignore_ascii_case (a b : char) : bool :=
  to_ascii_lowercase a =? to_ascii_lowercase b.

(** What the program takes from its environment: the Unicode tables of core, for characters
    outside ASCII, and whether it is compiled for Windows ([cfg(windows)]). These are
    parameters of the model: nothing is assumed about them. scoring.rs:59-67, query.rs:211, 257, scheme.rs:94-96. *)
Class unicode := {
  cfg_windows : bool;
  u_lowercase : char -> bool;
  u_uppercase : char -> bool;
  u_numeric : char -> bool;
  u_alphabetic : char -> bool;
  u_whitespace : char -> bool
}.

(** [char::is_lowercase]. scoring.rs:59. *)
Definition is_lowercase `{unicode} (c : char) : bool :=
  if is_ascii c then is_ascii_lowercase c else u_lowercase c.

(** [char::is_uppercase]. scoring.rs:61; query.rs:211, 257. *)
Definition is_uppercase `{unicode} (c : char) : bool :=
  if is_ascii c then is_ascii_uppercase c else u_uppercase c.

(** [char::is_numeric]. scoring.rs:63. *)
Definition is_numeric `{unicode} (c : char) : bool :=
  if is_ascii c then is_ascii_digit c else u_numeric c.

(** [char::is_alphabetic]. scoring.rs:65. *)
Definition is_alphabetic `{unicode} (c : char) : bool :=
  if is_ascii c then is_ascii_alphabetic c else u_alphabetic c.

(** [char::is_whitespace]: within ASCII, U+0009..U+000D and U+0020. scoring.rs:67. *)
Definition is_whitespace `{unicode} (c : char) : bool :=
  if is_ascii c then ((9 <=? c) && (c <=? 13)) || (c =? 32) else u_whitespace c.

(** [ch as u8]. candidate.rs:361. *)
Definition as_u8 (c : char) : N := c mod 256.

(** [char::len_utf8]. fzf.rs:549, 581; fzf_v2.rs:622, 680; candidate.rs:221, 237, 242. *)
Definition len_utf8 (c : char) : nat :=
  if c <? 128 then 1%nat
  else if c <? 2048 then 2%nat
  else if c <? 65536 then 3%nat
  else 4%nat.

(** UTF-8 encoding of a char ([char::encode_utf8]). The representation of the str arguments, e.g. fzf.rs:151. *)
Definition encode_char (c : char) : list N :=
  if c <? 128 then [c]
  else if c <? 2048 then [192 + c / 64; 128 + c mod 64]
  else if c <? 65536 then
    [224 + c / 4096; 128 + (c / 64) mod 64; 128 + c mod 64]
  else
    [240 + c / 262144; 128 + (c / 4096) mod 64;
     128 + (c / 64) mod 64; 128 + c mod 64].

(** [str::as_bytes]: the bytes of a string. fzf.rs:151, parser.rs:355. *)
Definition encode (s : str) : list N := flat_map encode_char s.

(** [str::chars]: the chars of a string given by its bytes. On byte sequences which are not
    UTF-8 (which safe Rust excludes) the result is irrelevant. parser.rs:175, 326; slab.rs:100. *)
Fixpoint decode (b : list N) : str :=
  match b with
  | [] => []
  | b0 :: r0 =>
      if b0 <? 128 then b0 :: decode r0
      else
        match r0 with
        | [] => []
        | b1 :: r1 =>
            if b0 <? 224 then ((b0 - 192) * 64 + (b1 - 128)) :: decode r1
            else
              match r1 with
              | [] => []
              | b2 :: r2 =>
                  if b0 <? 240 then
                    ((b0 - 224) * 4096 + (b1 - 128) * 64 + (b2 - 128))
                    :: decode r2
                  else
                    match r2 with
                    | [] => []
                    | b3 :: r3 =>
                        ((b0 - 240) * 262144 + (b1 - 128) * 4096
                         + (b2 - 128) * 64 + (b3 - 128)) :: decode r3
                    end
              end
        end
  end.

(** [str::len]: number of bytes. slab.rs:95. *)
Definition byte_len (s : str) : nat :=
  fold_right (fun c n => (len_utf8 c + n)%nat) 0%nat s.

(** [str::is_ascii]. fzf.rs:150. *)
Definition str_is_ascii (s : str) : bool := forallb is_ascii s.

(** Continuation bytes of UTF-8. Used by the slices of parser.rs:360, 367, 373, 387. *)
Definition is_continuation (b : N) : bool := (128 <=? b) && (b <? 192).

(** [str::is_char_boundary]. Used by the slices of parser.rs:360, 367, 373, 387. *)
Definition is_char_boundary (b : list N) (i : nat) : bool :=
  match nth_error b i with
  | Some x => Nat.eqb i 0 || negb (is_continuation x)
  | None => Nat.eqb i (List.length b)
  end.

(** [&s[i..]] on a str given by its bytes. parser.rs:367, 387. *)
Definition str_from (b : list N) (i : nat) : res (list N) :=
  if is_char_boundary b i then Ok (skipn i b) else Panic.

(** [&s[..i]] on a str given by its bytes. parser.rs:360, 373. *)
Definition str_to (b : list N) (i : nat) : res (list N) :=
  if is_char_boundary b i then Ok (firstn i b) else Panic.
