(** Properties C100 and C101: letters and their accents. See Properties_results.v for the conventions. *)
From Coq Require Import String.
From Verif Require Import Prelude Chars Normalize Utils Candidate Query Parser Scoring Slab Fzf FzfV1 FzfV2 Api History Spec.
From Verif Require Import UnicodeLetters Claims33 Claims34 ExampleKit.
Local Open Scope nat_scope.

(** ** C100. With normalization an accented letter is found by the letter under its accents *)

(** The property is false: Š (U+0160, an S and a caron) is not found by S, although š is found by s. *)
Theorem C100_letters_refuted : forall (UC : unicode) a, ~ (forall o m ps c x marks pre post,
  metric_reached a o m -> opt_norm o = true -> In (c, x, marks) decompositions ->
  accepts (find ps m [x] (pre ++ c :: post))).
Proof.
  intros UC a H.
  assert (D : In (352, 83, [780])%N decompositions) by (apply listed; vm_compute; reflexivity).
  pose proof (metric_with_reached a (with_norm default_options true)) as M.
  specialize (H _ _ parser_new _ _ _ [] [] M eq_refl D). apply (c100_exact _ _ _ _ _ _ _ M D) in H.
  destruct H as [_ [H|[H|[H|H]]]]; discriminate H.
Qed.
Print Assumptions C100_letters_refuted.

(** What holds: it is found wherever it occurs if it is one of the letters which [handled] describes. Missing: the other
    capitals and the letters with two marks beyond the Vietnamese ones, of which [C100_exact_partial] says that they are
    not found. *)
Theorem C100_letters_partial : forall (UC : unicode) a o m ps c x marks pre post,
  metric_reached a o m -> opt_norm o = true -> In (c, x, marks) decompositions -> handled c x marks ->
  accepts (find ps m [x] (pre ++ c :: post)).
Proof. exact (@c100_handled). Qed.
Print Assumptions C100_letters_partial.

Theorem C100_exact_partial : forall (UC : unicode) a o m ps c x marks,
  metric_reached a o m -> In (c, x, marks) decompositions ->
  (accepts (find ps m [x] [c]) <-> opt_norm o = true /\ handled c x marks).
Proof. exact (@c100_exact). Qed.
Print Assumptions C100_exact_partial.

(** No letter finds a character which is not a variant of this letter according to its name in Unicode. *)
Theorem C100_sound : forall (UC : unicode) a o m ps c x,
  metric_reached a o m -> ascii_letter x -> accepts (find ps m [x] [c]) ->
  same_char false x c \/ opt_norm o = true /\ exists y, In (c, y) letter_names /\ same_char false x y.
Proof. exact (@c100_sound). Qed.
Print Assumptions C100_sound.

(** á, Á, š and the Vietnamese capital with two marks are handled, Š is not; ø has no decomposition but a name. *)
Example C100_example (UC := latin) :
  let m := used AlgoV2 (with_norm default_options true) in
  metric_reached AlgoV2 (with_norm default_options true) m
  /\ In (225, 97, [769])%N decompositions /\ handled 225 97 [769%N]
  /\ In (193, 65, [769])%N decompositions /\ handled 193 65 [769%N]
  /\ In (353, 115, [780])%N decompositions /\ handled 353 115 [780%N]
  /\ In (7844, 65, [770; 769])%N decompositions /\ handled 7844 65 [770; 769]%N
  /\ In (352, 83, [780])%N decompositions /\ ~ handled 352 83 [780%N]
  /\ find parser_new m (txt "s") [65; 353; 66]%N = Ok (Some (Distance 32))
  /\ find parser_new m (txt "S") [65; 352; 66]%N = Ok None
  /\ find parser_new m (txt "s") [65; 352; 66]%N = Ok None
  /\ find parser_new m (txt "o") [248%N] = Ok (Some (Distance 36)) /\ In (248, 111)%N letter_names
  /\ ~ In (248, 97)%N letter_names.
Proof.
  intros m. subst m.
  split; [apply used_reached|].
  split; [apply listed; vm_compute; reflexivity|]. split; [left; reflexivity|].
  split; [apply listed; vm_compute; reflexivity|]. split; [right; left; reflexivity|].
  split; [apply listed; vm_compute; reflexivity|]. split; [left; reflexivity|].
  split; [apply listed; vm_compute; reflexivity|]. split; [split; discriminate|].
  split; [apply listed; vm_compute; reflexivity|]. split; [intros [H|[H|[H|H]]]; discriminate H|].
  split; [vm_compute; reflexivity|]. split; [vm_compute; reflexivity|]. split; [vm_compute; reflexivity|].
  split; [vm_compute; reflexivity|]. split; [apply named; vm_compute; reflexivity|].
  intros H. assert (K : existsb (fun e => (fst e =? 248) && (snd e =? 97))%N letter_names = true)
    by (apply existsb_exists; exists (248, 97)%N; split; [exact H|reflexivity]).
  vm_compute in K. discriminate.
Qed.

(** ** C101. Candidates with composed and with decomposed letters are found by the same queries *)

(** [decomposed which c c']: [c'] is [c] with some of its accented letters (those which [which] allows) written as the
    letter followed by its accents, as in the file names of some systems. *)

(** The property is false, even with normalization: of exact terms, since the accents stand between the letters; and of
    letters which are not [handled]. *)
Theorem C101_same_refuted : forall (UC : unicode) a, ~ (forall o m ps s c c',
  metric_reached a o m -> opt_norm o = true -> Forall (fun x => (x < 128)%N) s -> decomposed any_letter c c' ->
  (accepts (find ps m s c) <-> accepts (find ps m s c'))).
Proof.
  intros UC a H.
  pose proof (metric_with_reached a (with_norm default_options true)) as M.
  assert (D : decomposed any_letter [234; 110]%N [101; 770; 110]%N).
  { apply (dc_split _ 234%N 101%N [770%N]); [apply listed; vm_compute; reflexivity|exact I|]. repeat constructor. }
  assert (S : Forall (fun x => (x < 128)%N) [39; 101; 110]%N) by (repeat constructor).
  destruct (c101_exact _ _ _ parser_new M eq_refl) as [H1 H2].
  exact (H2 (proj1 (H _ _ parser_new _ _ _ M eq_refl S D) H1)).
Qed.
Print Assumptions C101_same_refuted.

Theorem C101_letter_refuted : forall (UC : unicode) a, ~ (forall o m ps x c c',
  metric_reached a o m -> opt_norm o = true -> ascii_letter x -> decomposed any_letter c c' ->
  (accepts (find ps m [x] c) <-> accepts (find ps m [x] c'))).
Proof.
  intros UC a H.
  pose proof (metric_with_reached a (with_norm default_options true)) as M.
  assert (D : decomposed any_letter [352]%N [83; 780]%N).
  { apply (dc_split _ 352%N 83%N [780%N]); [apply listed; vm_compute; reflexivity|exact I|]. constructor. }
  assert (X : ascii_letter 83%N) by (left; split; discriminate).
  destruct (c101_letter _ _ _ parser_new M) as [H1 H2].
  exact (H2 (proj2 (H _ _ parser_new _ _ _ M eq_refl X D) H1)).
Qed.
Print Assumptions C101_letter_refuted.

(** What holds: with normalization, fuzzy terms of ASCII characters, negated or not, find the same, if the letters are
    [handled]. *)
Theorem C101_same_partial : forall (UC : unicode) a o m ps s c c',
  metric_reached a o m -> opt_norm o = true ->
  Forall (Forall (fun t => t_kind t = KFuzzy /\ Forall (fun x => (x < 128)%N) (t_text t))) (parse_spec s) ->
  decomposed handled c c' ->
  (accepts (find ps m s c) <-> accepts (find ps m s c')).
Proof. exact (@c101_same). Qed.
Print Assumptions C101_same_partial.

(** And with any options and letters nothing is lost when letters are decomposed. *)
Theorem C101_decomposed_partial : forall (UC : unicode) a o m ps s c c',
  metric_reached a o m ->
  Forall (Forall (fun t => t_neg t = false /\ t_kind t = KFuzzy /\ Forall (fun x => (x < 128)%N) (t_text t))) (parse_spec s) ->
  decomposed any_letter c c' ->
  accepts (find ps m s c) -> accepts (find ps m s c').
Proof. exact (@c101_decomposed). Qed.
Print Assumptions C101_decomposed_partial.

(** résumé and the query rsm ue *)
Example C101_example (UC := latin) :
  let c := [114; 233; 115; 117; 109; 233]%N in
  let c' := [114; 101; 769; 115; 117; 109; 101; 769]%N in
  let m := used AlgoV1 (with_norm default_options true) in
  decomposed handled c c' /\ decomposed any_letter c c'
  /\ parse_spec (txt "rsm ue") = [[Term false KFuzzy (txt "rsm")]; [Term false KFuzzy (txt "ue")]]
  /\ find parser_new m (txt "rsm ue") c = Ok (Some (Distance 91))
  /\ find parser_new m (txt "rsm ue") c' = Ok (Some (Distance 98)).
Proof.
  intros c c' m. subst c c' m.
  assert (D : forall P : N -> N -> list N -> Prop, P 233%N 101%N [769%N] ->
    decomposed P [114; 233; 115; 117; 109; 233]%N [114; 101; 769; 115; 117; 109; 101; 769]%N).
  { intros P H. assert (E : In (233, 101, [769])%N decompositions) by (apply listed; vm_compute; reflexivity).
    apply dc_keep. apply (dc_split _ 233%N 101%N [769%N]); [exact E|exact H|]. do 3 apply dc_keep.
    apply (dc_split _ 233%N 101%N [769%N]); [exact E|exact H|]. constructor. }
  split; [apply D; left; reflexivity|]. split; [apply D; exact I|].
  split; [vm_compute; reflexivity|]. split; vm_compute; reflexivity.
Qed.
