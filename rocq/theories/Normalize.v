(** Model of /repo/src/normalize.rs. The tables are a literal transcription (generated by a
    script from the source); ASCII letters are written as their code. *)
From Verif Require Import Prelude Chars.
Local Open Scope N_scope.

(** FIRST_BATCH, normalize.rs:43-321 *)
Definition first_batch : list (char * char) :=
  [(0xC0, 65); (0xC1, 65); (0xC2, 65); (0xC3, 65); (0xC4, 65); (0xC5, 65);
   (0xC7, 67); (0xC8, 69); (0xC9, 69); (0xCA, 69); (0xCB, 69); (0xCC, 73);
   (0xCD, 73); (0xCE, 73); (0xCF, 73); (0xD1, 78); (0xD2, 79); (0xD3, 79);
   (0xD4, 79); (0xD5, 79); (0xD6, 79); (0xD8, 79); (0xD9, 85); (0xDA, 85);
   (0xDB, 85); (0xDC, 85); (0xDD, 89); (0xDF, 115); (0xE0, 97); (0xE1, 97);
   (0xE2, 97); (0xE3, 97); (0xE4, 97); (0xE5, 97); (0xE7, 99); (0xE8, 101);
   (0xE9, 101); (0xEA, 101); (0xEB, 101); (0xEC, 105); (0xED, 105);
   (0xEE, 105); (0xEF, 105); (0xF1, 110); (0xF2, 111); (0xF3, 111);
   (0xF4, 111); (0xF5, 111); (0xF6, 111); (0xF8, 111); (0xF9, 117);
   (0xFA, 117); (0xFB, 117); (0xFC, 117); (0xFD, 121); (0xFF, 121);
   (0x101, 97); (0x103, 97); (0x105, 97); (0x107, 99); (0x109, 99);
   (0x10B, 99); (0x10D, 99); (0x10F, 100); (0x111, 100); (0x113, 101);
   (0x115, 101); (0x117, 101); (0x119, 101); (0x11B, 101); (0x11D, 103);
   (0x11F, 103); (0x121, 103); (0x123, 103); (0x125, 104); (0x127, 104);
   (0x129, 105); (0x12B, 105); (0x12D, 105); (0x12F, 105); (0x130, 73);
   (0x131, 105); (0x135, 106); (0x137, 107); (0x13A, 108); (0x13C, 108);
   (0x13E, 108); (0x140, 108); (0x142, 108); (0x144, 110); (0x146, 110);
   (0x148, 110); (0x14D, 111); (0x14F, 111); (0x151, 111); (0x155, 114);
   (0x157, 114); (0x159, 114); (0x15B, 115); (0x15D, 115); (0x15F, 115);
   (0x161, 115); (0x163, 116); (0x165, 116); (0x167, 116); (0x169, 117);
   (0x16B, 117); (0x16D, 117); (0x16F, 117); (0x171, 117); (0x173, 117);
   (0x175, 119); (0x177, 121); (0x178, 89); (0x17A, 122); (0x17C, 122);
   (0x17E, 122); (0x17F, 115); (0x180, 98); (0x181, 66); (0x183, 98);
   (0x186, 79); (0x188, 99); (0x189, 68); (0x18A, 68); (0x18C, 100);
   (0x18E, 69); (0x190, 69); (0x192, 102); (0x193, 71); (0x197, 73);
   (0x199, 107); (0x19A, 108); (0x19C, 77); (0x19D, 78); (0x19E, 110);
   (0x19F, 79); (0x1A1, 111); (0x1A5, 112); (0x1AB, 116); (0x1AD, 116);
   (0x1AE, 84); (0x1B0, 117); (0x1B2, 86); (0x1B4, 121); (0x1B6, 122);
   (0x1CE, 97); (0x1D0, 105); (0x1D2, 111); (0x1D4, 117); (0x1DD, 101);
   (0x1E5, 103); (0x1E7, 103); (0x1E9, 107); (0x1EB, 111); (0x1F0, 106);
   (0x1F5, 103); (0x1F9, 110); (0x201, 97); (0x203, 97); (0x205, 101);
   (0x207, 101); (0x209, 105); (0x20B, 105); (0x20D, 111); (0x20F, 111);
   (0x211, 114); (0x213, 114); (0x215, 117); (0x217, 117); (0x219, 115);
   (0x21B, 116); (0x21F, 104); (0x220, 78); (0x221, 100); (0x225, 122);
   (0x227, 97); (0x229, 101); (0x22F, 111); (0x233, 121); (0x234, 108);
   (0x235, 110); (0x236, 116); (0x237, 106); (0x23A, 65); (0x23B, 67);
   (0x23C, 99); (0x23D, 76); (0x23E, 84); (0x23F, 115); (0x240, 122);
   (0x243, 66); (0x244, 85); (0x245, 86); (0x246, 69); (0x247, 101);
   (0x248, 74); (0x249, 106); (0x24A, 81); (0x24B, 113); (0x24C, 82);
   (0x24D, 114); (0x24E, 89); (0x24F, 121); (0x250, 97); (0x251, 97);
   (0x253, 98); (0x254, 111); (0x255, 99); (0x256, 100); (0x257, 100);
   (0x258, 101); (0x25B, 101); (0x25C, 101); (0x25D, 101); (0x25E, 101);
   (0x25F, 106); (0x260, 103); (0x261, 103); (0x262, 71); (0x265, 104);
   (0x266, 104); (0x268, 105); (0x26A, 73); (0x26B, 108); (0x26C, 108);
   (0x26D, 108); (0x26F, 109); (0x270, 109); (0x271, 109); (0x272, 110);
   (0x273, 110); (0x274, 78); (0x275, 111); (0x279, 114); (0x27A, 114);
   (0x27B, 114); (0x27C, 114); (0x27D, 114); (0x27E, 114); (0x27F, 114);
   (0x280, 82); (0x281, 82); (0x282, 115); (0x287, 116); (0x288, 116);
   (0x289, 117); (0x28B, 118); (0x28C, 118); (0x28D, 119); (0x28E, 121);
   (0x28F, 89); (0x290, 122); (0x291, 122); (0x297, 99); (0x299, 66);
   (0x29A, 101); (0x29B, 71); (0x29C, 72); (0x29D, 106); (0x29E, 107);
   (0x29F, 76); (0x2A0, 113); (0x2AE, 104); (0x363, 97); (0x364, 101);
   (0x365, 105); (0x366, 111); (0x367, 117); (0x368, 99); (0x369, 100);
   (0x36A, 104); (0x36B, 109); (0x36C, 114); (0x36D, 116); (0x36E, 118);
   (0x36F, 120)].

(** SECOND_BATCH, normalize.rs:333-508 *)
Definition second_batch : list (char * char) :=
  [(0x1D00, 65); (0x1D03, 66); (0x1D04, 67); (0x1D05, 68); (0x1D07, 69);
   (0x1D08, 101); (0x1D09, 105); (0x1D0A, 74); (0x1D0B, 75); (0x1D0C, 76);
   (0x1D0D, 77); (0x1D0E, 78); (0x1D0F, 79); (0x1D10, 79); (0x1D11, 111);
   (0x1D12, 111); (0x1D13, 111); (0x1D16, 111); (0x1D17, 111); (0x1D18, 80);
   (0x1D19, 82); (0x1D1A, 82); (0x1D1B, 84); (0x1D1C, 85); (0x1D1D, 117);
   (0x1D1E, 117); (0x1D1F, 109); (0x1D20, 86); (0x1D21, 87); (0x1D22, 90);
   (0x1D62, 105); (0x1D63, 114); (0x1D64, 117); (0x1D65, 118); (0x1E01, 97);
   (0x1E03, 98); (0x1E05, 98); (0x1E07, 98); (0x1E0B, 100); (0x1E0D, 100);
   (0x1E0F, 100); (0x1E11, 100); (0x1E13, 100); (0x1E19, 101); (0x1E1B, 101);
   (0x1E1F, 102); (0x1E21, 103); (0x1E23, 104); (0x1E25, 104); (0x1E27, 104);
   (0x1E29, 104); (0x1E2B, 104); (0x1E2D, 105); (0x1E31, 107); (0x1E33, 107);
   (0x1E35, 107); (0x1E37, 108); (0x1E3B, 108); (0x1E3D, 108); (0x1E3F, 109);
   (0x1E41, 109); (0x1E43, 109); (0x1E45, 110); (0x1E47, 110); (0x1E49, 110);
   (0x1E4B, 110); (0x1E55, 112); (0x1E57, 112); (0x1E59, 114); (0x1E5B, 114);
   (0x1E5F, 114); (0x1E61, 115); (0x1E63, 115); (0x1E6B, 116); (0x1E6D, 116);
   (0x1E6F, 116); (0x1E71, 116); (0x1E73, 117); (0x1E75, 117); (0x1E77, 117);
   (0x1E7D, 118); (0x1E7F, 118); (0x1E81, 119); (0x1E83, 119); (0x1E85, 119);
   (0x1E87, 119); (0x1E89, 119); (0x1E8B, 120); (0x1E8D, 120); (0x1E8F, 121);
   (0x1E91, 122); (0x1E93, 122); (0x1E95, 122); (0x1E96, 104); (0x1E97, 116);
   (0x1E98, 119); (0x1E99, 121); (0x1E9A, 97); (0x1E9B, 115); (0x1EA1, 97);
   (0x1EA3, 97); (0x1EA4, 65); (0x1EA5, 97); (0x1EA6, 65); (0x1EA7, 97);
   (0x1EA8, 65); (0x1EA9, 97); (0x1EAA, 65); (0x1EAB, 97); (0x1EAC, 65);
   (0x1EAD, 97); (0x1EAE, 65); (0x1EAF, 97); (0x1EB0, 65); (0x1EB1, 97);
   (0x1EB2, 65); (0x1EB3, 97); (0x1EB4, 65); (0x1EB5, 97); (0x1EB6, 65);
   (0x1EB7, 97); (0x1EB9, 101); (0x1EBB, 101); (0x1EBD, 101); (0x1EBE, 69);
   (0x1EBF, 101); (0x1EC0, 69); (0x1EC1, 101); (0x1EC2, 69); (0x1EC3, 101);
   (0x1EC4, 69); (0x1EC5, 101); (0x1EC6, 69); (0x1EC7, 101); (0x1EC9, 105);
   (0x1ECB, 105); (0x1ECD, 111); (0x1ECF, 111); (0x1ED0, 79); (0x1ED1, 111);
   (0x1ED2, 79); (0x1ED3, 111); (0x1ED4, 79); (0x1ED5, 111); (0x1ED6, 79);
   (0x1ED7, 111); (0x1ED8, 79); (0x1ED9, 111); (0x1EDA, 79); (0x1EDB, 111);
   (0x1EDC, 79); (0x1EDD, 111); (0x1EDE, 79); (0x1EDF, 111); (0x1EE0, 79);
   (0x1EE1, 111); (0x1EE2, 79); (0x1EE3, 111); (0x1EE5, 117); (0x1EE7, 117);
   (0x1EE8, 85); (0x1EE9, 117); (0x1EEA, 85); (0x1EEB, 117); (0x1EEC, 85);
   (0x1EED, 117); (0x1EEE, 85); (0x1EEF, 117); (0x1EF0, 85); (0x1EF1, 117);
   (0x1EF3, 121); (0x1EF5, 121); (0x1EF7, 121); (0x1EF9, 121)].

(** THIRD_BATCH, normalize.rs:520-531 *)
Definition third_batch : list (char * char) :=
  [(0x2071, 105); (0x2095, 104); (0x2096, 107); (0x2097, 108); (0x2098, 109);
   (0x2099, 110); (0x209A, 112); (0x209B, 115); (0x209C, 116); (0x2184, 99)].

(** linearize_batch, normalize.rs:4-37. [first] is first_raw_char + array_idx, [n] the number
    of iterations left; an exhausted batch would be an out-of-bounds access (a
    compile error in the const context). *)
Fixpoint linearize_from (batch : list (char * char)) (first : N) (n : nat) : res (list char) :=
  match n with
  | O => Ok []
  | S n' =>
      match batch with
      | [] => Panic
      | (raw, norm) :: batch' =>
          if raw =? first then
            let* l := linearize_from batch' (first + 1) n' in Ok (norm :: l)
          else
            let* l := linearize_from batch (first + 1) n' in Ok (first :: l)
      end
  end.

(** The code point of the first entry, normalize.rs:39, 329, 516 *)
Definition batch_start (batch : list (char * char)) : N := fst (hd (0, 0) batch).

(** The code point of the last entry, normalize.rs:41, 331, 518 *)
Definition batch_end (batch : list (char * char)) : N := fst (last batch (0, 0)).

(** *_LINEARIZED_LEN, normalize.rs:323-324, 510-511, 533-534 *)
Definition linearized_len (batch : list (char * char)) : nat :=
  N.to_nat (batch_end batch - batch_start batch + 1).

(** linearize_batch at its three uses, normalize.rs:326-327, 513-514, 536-537 *)
Definition linearize (batch : list (char * char)) : res (list char) :=
  linearize_from batch (batch_start batch) (linearized_len batch).

(** Value of a const array: the compiler has evaluated it without error. normalize.rs:326, 513, 536. *)
Definition const_array (r : res (list char)) : list char :=
  match r with Ok l => l | _ => [] end.

(** FIRST_BATCH_LINEARIZED, normalize.rs:326-327 *)
Definition first_linearized : list char := Eval vm_compute in const_array (linearize first_batch).
(** SECOND_BATCH_LINEARIZED, normalize.rs:513-514 *)
Definition second_linearized : list char := Eval vm_compute in const_array (linearize second_batch).
(** THIRD_BATCH_LINEARIZED, normalize.rs:536-537 *)
Definition third_linearized : list char := Eval vm_compute in const_array (linearize third_batch).

(** FIRST_BATCH_START, normalize.rs:39 *)
Definition FIRST_START : N := Eval vm_compute in batch_start first_batch.
(** FIRST_BATCH_END, normalize.rs:41 *)
Definition FIRST_END : N := Eval vm_compute in batch_end first_batch.
(** SECOND_BATCH_START, normalize.rs:329 *)
Definition SECOND_START : N := Eval vm_compute in batch_start second_batch.
(** SECOND_BATCH_END, normalize.rs:331 *)
Definition SECOND_END : N := Eval vm_compute in batch_end second_batch.
(** THIRD_BATCH_START, normalize.rs:516 *)
Definition THIRD_START : N := Eval vm_compute in batch_start third_batch.
(** THIRD_BATCH_END, normalize.rs:518 *)
Definition THIRD_END : N := Eval vm_compute in batch_end third_batch.

(** is_normalized, normalize.rs:541-550 *)
Definition is_normalized (c : char) : bool :=
  negb (((FIRST_START <=? c) && (c <=? FIRST_END))
        || ((SECOND_START <=? c) && (c <=? SECOND_END))
        || ((THIRD_START <=? c) && (c <=? THIRD_END))).

(** Array access in normalize, normalize.rs:562-566. Out of bounds would panic; the total
    default is justified by [normalize_index_in_bounds] in NormalizeProofs. *)
Definition lookup (l : list char) (i : N) (d : char) : char := nth (N.to_nat i) l d.

(** normalize, normalize.rs:554-568 *)
Definition normalize (c : char) : char :=
  if is_normalized c then c
  else if c <=? FIRST_END then lookup first_linearized (c - FIRST_START) c
  else if c <=? SECOND_END then lookup second_linearized (c - SECOND_START) c
  else lookup third_linearized (c - THIRD_START) c.
