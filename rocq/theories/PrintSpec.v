(** What printed text may consist of: the specification for properties C38 and C86. *)
From Verif Require Import Prelude Chars.
Local Open Scope N_scope.

(** The characters which printing may produce: visible ASCII characters and spaces, and others which are printable
    according to the Unicode tables, but never NUL, tab, line feed or carriage return *)
Definition harmless (printable : char -> bool) (c : char) : Prop :=
  (32 <= c /\ c <= 126) \/ (printable c = true /\ c <> 0 /\ c <> 9 /\ c <> 10 /\ c <> 13).

(** The numeral of a number: decimal digits, the first of which is not zero except in the numeral of
    zero, with the value [n] *)
Definition numeral (n : N) (ds : str) : Prop :=
  Forall (fun c => 48 <= c <= 57) ds /\ ds <> [] /\ (hd 48 ds = 48 -> ds = [48])
  /\ fold_left (fun v c => 10 * v + (c - 48)) ds 0 = n.
