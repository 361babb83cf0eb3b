(** Specification vocabulary for C107: what the terms of a query cost. *)
From Verif Require Import Prelude Chars Spec.
Local Open Scope nat_scope.

(** The spaces with which a text starts. *)
Fixpoint blanks (c : str) : nat :=
  match c with
  | x :: c' => if (x =? 32)%N then S (blanks c') else 0
  | [] => 0
  end.

(** Counting them looks at the first other character as well, if there is one. *)
Definition blanks_read (c : str) : nat := Nat.min (length c) (S (blanks c)).

Section Words.
Context {UC : unicode}.
(** When two characters agree. *)
Variable same : char -> char -> bool.

(** Comparing a text with the start of another stops after the first two characters which do not agree. *)
Fixpoint compared (text c : str) : nat :=
  match text, c with
  | x :: text', y :: c' => S (if same x y then compared text' c' else 0)
  | _, _ => 0
  end.

(** [c] starts with [text]. *)
Definition begins (text c : str) : bool := agreed_len same text c =? length text.

(** A prefix term: the spaces are counted, those which the term does not ask for are skipped. If the rest starts with
    the term, its characters are visited once more, to compute the score. *)
Definition prefix_cost (text c : str) : nat :=
  let rest := skipn (blanks c - blanks text) c in
  blanks_read c
  + if blanks c <? blanks text then 0
    else compared text rest + (if begins text rest then length text else 0).

(** A suffix term: the same from the other end. *)
Definition suffix_cost (text c : str) : nat := prefix_cost (rev text) (rev c).

(** An equality term: both, and nothing is compared if what is left is too short. *)
Definition equal_cost (text c : str) : nat :=
  let front := blanks c - blanks text in
  let back := blanks (rev c) - blanks (rev text) in
  let width := length c - back - front in
  blanks_read c
  + if (blanks c <? blanks text) || (front =? length c) then 0
    else blanks_read (rev c)
         + if (blanks (rev c) <? blanks (rev text)) || (width <? length text) then 0
           else compared text (skipn front c)
                + (if begins text (skipn front c) && (width =? length text) then length text else 0).

(** An exact term: it is compared with the candidate at every position [j], and wherever at least the first character
    agrees, the search starts again behind it. It ends with the candidate, or with an occurrence which is good enough
    (C46). [rest] are the characters from [j] on. *)
Fixpoint tries (s : scheme_name) (text c : str) (j : nat) (rest : str) : nat :=
  match rest with
  | [] => 0
  | _ :: rest' =>
      compared text rest
      + if (compared text rest =? length rest) || (begins text rest && (8 <=? bonus_seen same s text c j)%Z) then 0
        else (if agreed_len same text rest =? 0 then 0 else 1) + tries s text c (S j) rest'
  end.

Definition occurs (text c : str) : bool := existsb (fun j => begins text (skipn j c)) (seq 0 (length c)).

Definition exact_cost (s : scheme_name) (text c : str) : nat :=
  1 + tries s text c 0 c + (if occurs text c then length text else 0).

(** Fuzzy terms: see C102. *)
Definition word_cost (s : scheme_name) (k : kind) (text c : str) : nat :=
  match k with
  | KFuzzy => 0
  | KExact => exact_cost s text c
  | KPrefix => prefix_cost text c
  | KSuffix => suffix_cost text c
  | KEqual => equal_cost text c
  end.

End Words.

(** The terms of a condition are tried until one holds, one step and what it costs for each. *)
Fixpoint condition_cost (cost : term -> nat) (holds : term -> bool) (g : list term) : nat :=
  match g with
  | [] => 0
  | t :: g' => 1 + cost t + if holds t then 0 else condition_cost cost holds g'
  end.

(** The conditions until one does not hold, one step for each. *)
Fixpoint conditions_cost (cost : term -> nat) (holds : term -> bool) (q : cnf) : nat :=
  match q with
  | [] => 0
  | g :: q' => 1 + condition_cost cost holds g + if existsb holds g then conditions_cost cost holds q' else 0
  end.
