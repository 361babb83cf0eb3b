(** Property C105: exactly how many steps parsing takes. *)
From Coq Require Import String.
From Verif Require Import Prelude Chars Candidate Query Parser ParseCost CostFormula ParseFormula Spec.
From Verif Require Import Claims39 ExampleKit.
Local Open Scope nat_scope.

(** ** C105. How many steps parsing takes *)

(** [parse_steps ps s] and [parse_not_extended_steps ps s] count the iterations of the loops, and of the standard
    library's loops, in parse(s) and parse_not_extended(s) by the parser [ps]: see ParseCost.v.

    The buffers are made longer if they are too short. The bytes are looked at once, in search of spaces; every
    character which does not separate words is copied, except that a backslash which escapes a space is skipped over
    at the same price. Words and conditions have fixed prices. Each term is searched for an upper case letter and for
    the spaces in front and at the end. *)
Theorem C105_parse : forall (UC : unicode) ps s,
  parse_steps ps s
  = buffers_cost ps (byte_len s)
    + byte_len s + (length s - separators s)
    + words_overhead (length (words_of s)) (length (parse_spec s)) (ends_in_separator s)
    + list_sum (map (fun t => term_cost (t_text t)) (concat (parse_spec s))).
Proof. exact @parse_steps_exact. Qed.
Print Assumptions C105_parse.

Theorem C105_raw : forall (UC : unicode) ps s, length s <= length (ps_chars ps) ->
  parse_not_extended_steps ps s = length s + term_cost s.
Proof. exact @parse_not_extended_steps_exact. Qed.
Print Assumptions C105_raw.

Example C105_example (UC := latin) :
  let s := txt "  foo 'Ba\ r | !^baz$ | ! " in
  (byte_len s, length s, separators s, length (words_of s), length (parse_spec s), ends_in_separator s) = (26, 26, 8, 6, 2, true)
  /\ map (fun t => term_cost (t_text t)) (concat (parse_spec s)) = [5; 3; 5]
  /\ buffers_cost parser_new (byte_len s) = 0
  /\ parse_steps parser_new s = 26 + 18 + (24 + 1 + 1 + 3) + 13
  /\ buffers_cost parser_new (byte_len (repeat 97%N 200)) = 200 + 101 + 101
  /\ parse_steps parser_new (repeat 97%N 200) = 402 + 200 + 200 + (4 + 1 + 2) + 202
  /\ parse_steps parser_new (txt "   ") = 3 + 2
  /\ parse_steps parser_new (txt "a | | !") = 7 + 4 + (16 + 1 + 2) + 3
  /\ (length s <=? length (ps_chars parser_new)) = true
  /\ parse_not_extended_steps parser_new s = 26 + (8 + 3 + 2).
Proof. vm_compute. repeat split; reflexivity. Qed.
