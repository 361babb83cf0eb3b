(** Specification vocabulary, written without reference to the functions of the model.

    What is shared with the model: the types of characters and of options, the class
    [unicode] with [is_uppercase], and the data tables of normalize.rs. *)
From Coq Require Import Sorted.
From Verif Require Import Prelude Chars Normalize.
From Verif Require Utils Scoring.

Definition case_mode := Utils.case_sensitivity.
Definition scheme_name := Scoring.fzf_scheme.

(** * Characters *)

(** ASCII upper case letters are folded to lower case, nothing else changes. *)
Definition fold_case (c : char) : char :=
  if ((65 <=? c) && (c <=? 90))%N then (c + 32)%N else c.

Definition same_char (sensitive : bool) (a b : char) : Prop :=
  if sensitive then a = b else fold_case a = fold_case b.

Definition ascii_letter (x : char) : Prop := (65 <= x <= 90 \/ 97 <= x <= 122)%N.

(** Sensitive is stricter than smart, which is stricter than insensitive. *)
Inductive stricter : case_mode -> case_mode -> Prop :=
| st_smart : stricter Utils.Sensitive Utils.Smart
| st_insensitive : stricter Utils.Sensitive Utils.Insensitive
| st_smart_insensitive : stricter Utils.Smart Utils.Insensitive.

(** The numbers which are values of the type char of Rust. *)
Definition scalar (c : char) : Prop := (c < 0xD800 \/ 0xE000 <= c <= 0x10FFFF)%N.

(** The entry of the character in the normalization tables, or the character itself. *)
Definition normal_form (c : char) : char :=
  match find (fun e => (fst e =? c)%N) (first_batch ++ second_batch ++ third_batch) with
  | Some e => snd e
  | None => c
  end.

(** Query character [q] agrees with candidate character [c]: they are the same, or, with
    normalization, [q] is the same as the normal form of [c]. *)
Definition agrees (sensitive norm : bool) (q c : char) : Prop :=
  same_char sensitive q c \/ (norm = true /\ same_char sensitive q (normal_form c)).

(** * Shapes of matches. [R] is the agreement of a query char with a candidate char. *)
Section Shapes.
Variable R : char -> char -> Prop.

(** One candidate position per query character, in order. *)
Definition alignment (p c : str) (ps : list nat) : Prop :=
  StronglySorted lt ps
  /\ Forall2 (fun x j => exists y, nth_error c j = Some y /\ R x y) p ps.

(** The alignment of which no position can be further to the left. *)
Definition leftmost (p c : str) (ps : list nat) : Prop :=
  alignment p c ps /\ forall qs, alignment p c qs -> Forall2 le ps qs.

Definition fuzzy_in (p c : str) : Prop := exists ps, alignment p c ps.

(** The window of [p] in [c]: among the alignments which end first, the one which starts last,
    and among these the one of which no position can be further to the left. *)
Definition window (p c : str) (ps : list nat) : Prop :=
  alignment p c ps
  /\ (forall qs, alignment p c qs -> last ps 0 <= last qs 0)
  /\ (forall qs, alignment p c qs -> last qs 0 = last ps 0 ->
        hd 0 qs <= hd 0 ps /\ (hd 0 qs = hd 0 ps -> Forall2 le ps qs)).

(** [p] occurs contiguously in [c] at char offset [i]. *)
Definition occurs_at (p c : str) (i : nat) : Prop :=
  exists pre mid post, c = pre ++ mid ++ post /\ length pre = i /\ Forall2 R p mid.

Definition exact_in (p c : str) : Prop := exists i, occurs_at p c i.

Definition spaces (n : nat) : str := repeat 32%N n.

Definition prefix_in (p c : str) : Prop :=
  exists n mid post, c = spaces n ++ mid ++ post /\ Forall2 R p mid.

Definition suffix_in (p c : str) : Prop :=
  exists pre mid n, c = pre ++ mid ++ spaces n /\ Forall2 R p mid.

Definition equal_in (p c : str) : Prop :=
  exists n mid k, c = spaces n ++ mid ++ spaces k /\ Forall2 R p mid.

End Shapes.

(** * Query language *)

Inductive kind := KFuzzy | KExact | KPrefix | KSuffix | KEqual.

(** Whatever a term of the first kind accepts, a term of the second kind with the same
    text should accept. *)
Inductive narrower : kind -> kind -> Prop :=
| nr_exact : narrower KExact KFuzzy
| nr_prefix : narrower KPrefix KExact
| nr_suffix : narrower KSuffix KExact
| nr_equal_prefix : narrower KEqual KPrefix
| nr_equal_suffix : narrower KEqual KSuffix
| nr_trans k1 k2 k3 : narrower k1 k2 -> narrower k2 k3 -> narrower k1 k3.

Record term := Term { t_neg : bool; t_kind : kind; t_text : str }.

(** A query is a conjunction of disjunctions of terms. *)
Notation cnf := (list (list term)).

(** [`\ `] is a literal space, any other space separates words. *)
Inductive token := Lit (c : char) | Sep.

Fixpoint tokens (q : str) : list token :=
  match q with
  | [] => []
  | c :: rest =>
      if (c =? 32)%N then Sep :: tokens rest
      else
        match rest with
        | d :: rest' =>
            if (c =? 92)%N && (d =? 32)%N then Lit 32%N :: tokens rest'
            else Lit c :: tokens rest
        | [] => [Lit c]
        end
  end.

(** Maximal runs of literals, including empty ones between separators. *)
Fixpoint split (l : list token) : list str :=
  match l with
  | [] => [[]]
  | Sep :: l' => [] :: split l'
  | Lit c :: l' =>
      match split l' with
      | w :: ws => (c :: w) :: ws
      | [] => [[c]]
      end
  end.

Definition nonempty (w : str) : bool := match w with [] => false | _ => true end.

Definition words_of (q : str) : list str := filter nonempty (split (tokens q)).

(** The leading sigil of a term after an optional [!]. *)
Inductive opening := OQuote | OCaret | ONone.

(** Documented kinds of terms. *)
Definition kind_of (neg : bool) (o : opening) (dollar : bool) : kind :=
  match o, dollar, neg with
  | OQuote, _, false => KExact
  | OQuote, _, true => KFuzzy
  | OCaret, true, _ => KEqual
  | OCaret, false, _ => KPrefix
  | ONone, true, _ => KSuffix
  | ONone, false, false => KFuzzy
  | ONone, false, true => KExact
  end.

Definition bang (w : str) : bool * str :=
  match w with
  | c :: r => if (c =? 33)%N then (true, r) else (false, w)
  | [] => (false, w)
  end.

(** A final [$] is a sigil unless it is the only character. *)
Definition dollar (w : str) : bool * str :=
  match w with
  | [] | [_] => (false, w)
  | _ => if (last w 0%N =? 36)%N then (true, removelast w) else (false, w)
  end.

Definition open_sigil (w : str) : opening * str :=
  match w with
  | c :: r =>
      if (c =? 39)%N then (OQuote, r)
      else if (c =? 94)%N then (OCaret, r)
      else (ONone, w)
  | [] => (ONone, w)
  end.

(** The term denoted by a word, if any text is left after the sigils. *)
Definition term_of (w : str) : option term :=
  let (neg, w) := bang w in
  let (d, w) := dollar w in
  let (o, w) := open_sigil w in
  match w with
  | [] => None
  | _ => Some (Term neg (kind_of neg o d) w)
  end.

Definition is_bar (w : str) : bool :=
  match w with
  | [c] => (c =? 124)%N
  | _ => false
  end.

(** The term denoted by a word of the query; a [|] denotes none. *)
Definition is_term (w : str) : option term := if is_bar w then None else term_of w.

Fixpoint terms_of (ws : list str) : list term :=
  match ws with
  | [] => []
  | w :: ws' => match is_term w with Some t => t :: terms_of ws' | None => terms_of ws' end
  end.

(** A list of words whose last, or first, denotes a term. *)
Definition ends_in_term (ws : list str) : Prop :=
  ws = [] \/ exists ws' w t, ws = ws' ++ [w] /\ is_term w = Some t.
Definition begins_with_term (ws : list str) : Prop :=
  ws = [] \/ exists w ws' t, ws = w :: ws' /\ is_term w = Some t.

(** A text which no rule about sigils applies to. *)
Definition plain (t : str) : Prop :=
  t <> [] /\ ~ In (hd 0%N t) [33; 39; 94]%N /\ last t 0%N <> 36%N.

(** The terms of the query, each with a flag telling whether a [|] stands between it and the
    term before it. *)
Fixpoint marked_terms (bar : bool) (ws : list str) : list (bool * term) :=
  match ws with
  | [] => []
  | w :: ws' =>
      if is_bar w then marked_terms true ws'
      else
        match term_of w with
        | None => marked_terms bar ws'
        | Some t => (bar, t) :: marked_terms false ws'
        end
  end.

(** Terms joined by [|] form a disjunction. *)
Fixpoint join_bars (l : list (bool * term)) : cnf :=
  match l with
  | [] => []
  | (_, t) :: l' =>
      match l' with
      | (true, _) :: _ =>
          match join_bars l' with
          | g :: gs => (t :: g) :: gs
          | [] => [[t]]
          end
      | _ => [t] :: join_bars l'
      end
  end.

Definition parse_spec (q : str) : cnf := join_bars (marked_terms false (words_of q)).

(** How to write a word: spaces are escaped. *)
Definition escape (w : str) : str :=
  flat_map (fun c => if (c =? 32)%N then [92; 32]%N else [c]) w.

Fixpoint print_words (ws : list str) : str :=
  match ws with
  | [] => []
  | [w] => escape w
  | w :: ws' => escape w ++ 32%N :: print_words ws'
  end.

(** The number of characters of all the terms of a query, and of its exact terms. *)
Definition text_length (q : cnf) : nat := list_sum (map (fun t => length (t_text t)) (concat q)).
Definition exact_length (q : cnf) : nat :=
  list_sum (map (fun t => match t_kind t with KExact => length (t_text t) | _ => 0 end) (concat q)).

(** * When a candidate matches *)
Section Matching.
Context {UC : unicode}.

(** Smart case: a term is case sensitive iff it contains an upper case letter. *)
Definition sensitive_for (m : case_mode) (text : str) : bool :=
  match m with
  | Utils.Sensitive => true
  | Utils.Insensitive => false
  | Utils.Smart => existsb is_uppercase text
  end.

(** Ignoring negation. *)
Definition text_matches (m : case_mode) (norm : bool) (k : kind) (text c : str) : Prop :=
  let R := agrees (sensitive_for m text) norm in
  match k with
  | KFuzzy => fuzzy_in R text c
  | KExact => exact_in R text c
  | KPrefix => prefix_in R text c
  | KSuffix => suffix_in R text c
  | KEqual => equal_in R text c
  end.

Definition term_accepts (m : case_mode) (norm : bool) (t : term) (c : str) : Prop :=
  if t_neg t then ~ text_matches m norm (t_kind t) (t_text t) c
  else text_matches m norm (t_kind t) (t_text t) c.

(** The one kind of term for which the code does not implement [equal_in]. *)
Definition blank_equal (t : term) : Prop :=
  t_kind t = KEqual /\ t_text t = spaces (length (t_text t)).

(** The one kind of query whose negation the code does not see. *)
Definition lone_negated_fuzzy (q : cnf) : Prop := exists text, q = [[Term true KFuzzy text]].

(** Neither of the two occurs. *)
Definition regular (q : cnf) : Prop :=
  ~ lone_negated_fuzzy q /\ Forall (Forall (fun t => ~ blank_equal t)) q.

Definition cnf_accepts (m : case_mode) (norm : bool) (q : cnf) (c : str) : Prop :=
  Forall (fun alternatives => Exists (fun t => term_accepts m norm t c) alternatives) q.

(** [t] is the first alternative which holds. *)
Definition first_such (holds : term -> Prop) (alternatives : list term) (t : term) : Prop :=
  exists before after, alternatives = before ++ t :: after
    /\ Forall (fun u => ~ holds u) before /\ holds t.

(** No term is negated. *)
Definition positive (q : cnf) : Prop := Forall (Forall (fun t => t_neg t = false)) q.

(** * Scores *)

Fixpoint sum (l : list Z) : Z := match l with [] => 0 | x :: l' => x + sum l' end%Z.

Inductive place := PSpace | POther | PDelim | PLower | PUpper | PLetter | PDigit.

Definition delimiters (s : scheme_name) : list char :=
  match s with
  | Scoring.SchemePath => if cfg_windows then [47; 92]%N else [47]%N
  | _ => [47; 44; 58; 59; 124]%N
  end.

(** Points for a position after white space, and for a position after a delimiter. *)
Definition white_points (s : scheme_name) : Z :=
  match s with Scoring.SchemeDefault => 10 | _ => 8 end.
Definition delim_points (s : scheme_name) : Z :=
  match s with Scoring.SchemeHistory => 8 | _ => 9 end.

(** What is imagined before the first character. *)
Definition before_start (s : scheme_name) : place :=
  match s with Scoring.SchemePath => PDelim | _ => PSpace end.

Definition place_of (s : scheme_name) (c : char) : place :=
  if (c <? 128)%N then
    if ((97 <=? c) && (c <=? 122))%N then PLower
    else if ((65 <=? c) && (c <=? 90))%N then PUpper
    else if ((48 <=? c) && (c <=? 57))%N then PDigit
    else if existsb (N.eqb c) [9; 10; 12; 13; 32]%N then PSpace
    else if existsb (N.eqb c) (delimiters s) then PDelim
    else POther
  else if u_lowercase c then PLower
  else if u_uppercase c then PUpper
  else if u_numeric c then PDigit
  else if u_alphabetic c then PLetter
  else if u_whitespace c then PSpace
  else POther.

(** Points of a character of place [cur] right after one of place [prev]. *)
Definition points (s : scheme_name) (prev cur : place) : Z :=
  match cur, prev with
  | POther, _ => 8
  | PSpace, _ => white_points s
  | PUpper, PLower => 7
  | PDigit, PDigit => 0
  | PDigit, _ => 7
  | _, PSpace => white_points s
  | _, PDelim => delim_points s
  | _, POther => 8
  | _, _ => 0
  end.

(** Points of position [j] of candidate [c]. *)
Definition bonus_of (s : scheme_name) (c : str) (j : nat) : Z :=
  points s
    (match j with O => before_start s | S i => place_of s (nth i c 0%N) end)
    (place_of s (nth j c 0%N)).

(** The most points a position can have. *)
Definition top_points (s : scheme_name) : Z :=
  match s with
  | Scoring.SchemeDefault => 10 | Scoring.SchemePath => 9 | Scoring.SchemeHistory => 8
  end.

(** The score of [n] consecutive characters which start at such a position: 16 and the points of
    the first for each, and once more the points for the first (C67). *)
Definition best_score (s : scheme_name) (n : nat) : Z :=
  (16 + top_points s) * Z.of_nat n + top_points s.

(** How many characters of [p] agree with those of [c], from the start. *)
Fixpoint agreed_len (same : char -> char -> bool) (p c : str) : nat :=
  match p, c with
  | x :: p', y :: c' => if same x y then S (agreed_len same p' c') else 0
  | _, _ => 0
  end.

(** The search for an exact term [p] tries every position of [c] whose character agrees with
    the first of [p]. A position right after one that was tried is not judged by the character
    before it but by the last character which the try before has read and which agreed
    (if it was a success: the last but one). *)
Fixpoint place_seen (same : char -> char -> bool) (s : scheme_name) (p c : str) (j : nat) : place :=
  match j with
  | O => before_start s
  | S i =>
      let k := agreed_len same p (skipn i c) in
      if k =? 0 then place_of s (nth i c 0%N)
      else if k <? length p then place_of s (nth (i + k - 1) c 0%N)
      else if k =? 1 then place_seen same s p c i
      else place_of s (nth (i + k - 2) c 0%N)
  end.

(** The points which that search sees at position [j]. *)
Definition bonus_seen (same : char -> char -> bool) (s : scheme_name) (p c : str) (j : nat) : Z :=
  points s (place_seen same s p c j) (place_of s (nth j c 0%N)).

(** Score of the rest of an alignment after position [prev], which belongs to a run of adjacent
    positions worth [best] points. A gap of n characters costs 3 + (n - 1). *)
Fixpoint rest_score (s : scheme_name) (c : str) (prev : nat) (best : Z) (ps : list nat) : Z :=
  match ps with
  | [] => 0
  | j :: ps' =>
      let b := bonus_of s c j in
      if (j =? S prev)%nat then
        let best := if ((8 <=? b) && (best <? b))%Z then b else best in
        16 + Z.max (Z.max b best) 4 + rest_score s c j best ps'
      else
        16 + b - (3 + (Z.of_nat (j - S prev)%nat - 1)) + rest_score s c j b ps'
  end%Z.

(** The bonus of the first character counts twice. *)
Definition alignment_score (s : scheme_name) (c : str) (ps : list nat) : Z :=
  match ps with
  | [] => 0
  | j :: ps' => 16 + 2 * bonus_of s c j + rest_score s c j (bonus_of s c j) ps'
  end%Z.

End Matching.

(** * The table of FzfV2

    One row per query character, one column per candidate character. A cell holds the
    best points found for a match of the query up to its row ending at or before
    its column, and the length of the run of adjacent hits which ends there. *)

Record cell := Cell { pts : Z; run : nat }.

(** Subtraction in the code stops at the least 64-bit integer. *)
Definition at_least_min (x : Z) : Z := Z.max x (- 2 ^ 63).

Section Table.
(** [hit i j]: query character [i] agrees with candidate character [j]. *)
Variable hit : nat -> nat -> bool.
(** Points of column [j]. *)
Variable bonus : nat -> Z.
(** The first column of row [i], and the last column of the table. *)
Variable first : nat -> nat.
Variable stop : nat.

Definition later_hit (i j : nat) : bool := existsb (hit i) (seq (S j) (stop - j)).

(** What it costs to go from column [j - 1] to column [j] in row [i]: 1 if that continues a gap,
    otherwise 3. Exception: a gap which no hit follows in its row starts with the
    cost of the step that led to the hit before it. *)
Definition step_cost (i j : nat) : Z :=
  if (first i <? j) && negb (hit i (j - 1)) then 1
  else if hit i j || later_hit i j then 3
  else if (first i <? j - 1) && negb (hit i (j - 2)) then 1
  else 3.

Definition first_row : nat -> cell :=
  fix col (j : nat) : cell :=
    if j <? first 0 then Cell 0 0
    else if hit 0 j then Cell (16 + 2 * bonus j) 1
    else
      match j with
      | O => Cell 0 0
      | S j' => Cell (at_least_min (pts (col j') - step_cost 0 j)) 0
      end.

(** [up] is the row above. *)
Definition next_row (i : nat) (up : nat -> cell) : nat -> cell :=
  fix col (j : nat) : cell :=
    match j with
    | O => Cell 0 0
    | S j' =>
        if j <? first i then Cell 0 0
        else
          let left := at_least_min (pts (col j') - step_cost i j) in
          if hit i j then
            let r := S (run (up j')) in
            let first_bonus := bonus (S j - r) in
            let (b, r) :=
              if r =? 1 then (bonus j, r)
              else if ((8 <=? bonus j) && (first_bonus <? bonus j))%Z then (bonus j, 1)
              else (Z.max (Z.max 4 first_bonus) (bonus j), r) in
            let diagonal := (pts (up j') + 16 + b)%Z in
            if (diagonal <? left)%Z then Cell left 0 else Cell diagonal r
          else Cell left 0
    end.

Fixpoint table (i : nat) : nat -> cell :=
  match i with
  | O => first_row
  | S i' => next_row i (table i')
  end.

(** What the characters between the positions [p] and [j] cost in row [i]. *)
Definition gap_cost (i p j : nat) : Z := sum (map (step_cost i) (seq (S p) (j - S p))).

(** The points of an alignment: as in [rest_score] and [alignment_score], but for the gaps. *)
Fixpoint rest_pts (i prev : nat) (best : Z) (ps : list nat) : Z :=
  match ps with
  | [] => 0
  | j :: ps' =>
      let b := bonus j in
      if (j =? S prev)%nat then
        let best := if ((8 <=? b) && (best <? b))%Z then b else best in
        16 + Z.max (Z.max b best) 4 + rest_pts (S i) j best ps'
      else
        16 + b - gap_cost i prev j + rest_pts (S i) j b ps'
  end%Z.

Definition alignment_pts (ps : list nat) : Z :=
  match ps with
  | [] => 0
  | j :: ps' => 16 + 2 * bonus j + rest_pts 0 j (bonus j) ps'
  end%Z.

(** The cells of a table of [h] rows whose column is a hit. *)
Definition hit_cell (h i j : nat) : Prop :=
  i < h /\ first i <= j <= stop /\ hit i j = true.

(** The hit with the most points: of several, the uppermost, and in its row the leftmost. *)
Definition best_cell (h i j : nat) : Prop :=
  hit_cell h i j
  /\ (forall i' j', hit_cell h i' j' -> (pts (table i' j') <= pts (table i j))%Z)
  /\ (forall i' j', hit_cell h i' j' -> i' < i \/ (i' = i /\ j' < j) ->
        (pts (table i' j') < pts (table i j))%Z).

(** The columns which are highlighted, from right to left, starting at cell [i], [j] of a table
    of [h] rows: a column whose cell has more points than the cell to the upper left, and more than
    the cell to the left (or as many, if [prefer]), is highlighted and the walk goes on
    from the upper left; otherwise it goes on from the left. [prefer] says whether the cell visited
    before belongs to a run of adjacent hits. *)
Fixpoint way_back (h i j : nat) (prefer : bool) {struct j} : list nat :=
  let here := pts (table i j) in
  let left := match j with O => 0%Z | S j' => pts (table i j') end in
  let diagonal :=
    match i, j with
    | S i', S j' => pts (table i' j')
    | _, _ => 0%Z
    end in
  let prefer' :=
    (1 <? run (table i j))
    || ((S i <? h) && (j <? stop) && (0 <? run (table (S i) (S j)))) in
  if (diagonal <? here)%Z && ((left <? here)%Z || ((here =? left)%Z && prefer)) then
    j :: match i, j with
         | S i', S j' => way_back h i' j' prefer'
         | _, _ => []
         end
  else
    match j with
    | O => []
    | S j' => way_back h i j' prefer'
    end.

End Table.

(** The number of characters skipped between the positions of an alignment, and the number
    of places where some are. *)
Fixpoint skipped (ps : list nat) : Z :=
  match ps with
  | p :: ((j :: _) as ps') => Z.of_nat (j - S p) + skipped ps'
  | _ => 0
  end%Z.

Fixpoint gaps (ps : list nat) : Z :=
  match ps with
  | p :: ((j :: _) as ps') => (if (j =? S p)%nat then 0 else 1) + gaps ps'
  | _ => 0
  end%Z.

(** * Lists of candidates *)

(** The candidates for which [f] gives a value, each with its value. *)
Definition found_in {D : Type} (f : str -> option D) (cs : list str) : list (str * D) :=
  flat_map (fun c => match f c with Some d => [(c, d)] | None => [] end) cs.

(** * Byte ranges *)

Notation byte_range := (nat * nat)%type.

(** Byte [b] is inside one of the ranges. *)
Definition covered (rs : list byte_range) (b : nat) : Prop :=
  exists r, In r rs /\ fst r <= b < snd r.

(** Byte [b] belongs to the [j]-th character of [c]. *)
Definition byte_of_char (c : str) (j b : nat) : Prop :=
  j < length c /\ byte_len (firstn j c) <= b < byte_len (firstn (S j) c).

(** Non-empty, ascending, and separated by at least one byte. *)
Definition canonical (rs : list byte_range) : Prop :=
  Forall (fun r => fst r < snd r) rs
  /\ StronglySorted (fun r r' => snd r < fst r') rs.

(** Offset [n] is a character boundary of [c]. *)
Definition boundary (c : str) (n : nat) : Prop := exists k, n = byte_len (firstn k c).
