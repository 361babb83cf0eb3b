(** What the examples in the Properties files are made of: strings, a small Unicode table,
    metrics with given options and queries. Nothing here is part of the model. *)
From Coq Require Import String Ascii.
From Verif Require Import Prelude Chars Utils Query Parser Scoring Api History.
From Verif Require Import ParserProofs ApiProofs Claims1.

(** A string literal as a list of characters. *)
Definition txt (s : string) : str := map N_of_ascii (list_ascii_of_string s).
Arguments txt s%string.

(** Latin-1 letters and the no-break space; everything else has none of the properties. *)
Definition latin : unicode :=
  {| cfg_windows := false;
     u_lowercase := fun c => ((223 <=? c) && (c <=? 255) && negb (c =? 247))%N;
     u_uppercase := fun c => ((192 <=? c) && (c <=? 222) && negb (c =? 215))%N;
     u_numeric := fun _ => false;
     u_alphabetic := fun c => ((192 <=? c) && (c <=? 255) && negb (c =? 215) && negb (c =? 247))%N;
     u_whitespace := fun c => (c =? 160)%N |}.

(** No character outside of ASCII has any property, and paths are those of Windows. *)
Definition no_tables : unicode :=
  {| cfg_windows := true; u_lowercase := fun _ => false; u_uppercase := fun _ => false; u_numeric := fun _ => false;
     u_alphabetic := fun _ => false; u_whitespace := fun _ => false |}.

(** The parts of a result that can be compared: not the metric. *)
Definition shown (r : res (option distance * metric)) : option (option distance) :=
  match r with Ok (d, _) => Some d | _ => None end.

Definition shown_ranges (r : res (option distance * metric * list (nat * nat)))
  : option (option distance * list (nat * nat)) :=
  match r with Ok (d, _, buf) => Some (d, buf) | _ => None end.

Lemma shown_ranges_ok r d buf : shown_ranges r = Some (d, buf) -> exists m', r = Ok (d, m', buf).
Proof. destruct r as [[[d' m'] buf']| |]; cbn; try discriminate. intros H. injection H as -> ->. eauto. Qed.

Lemma shown_ok r d : shown r = Some d -> exists m', r = Ok (d, m').
Proof. destruct r as [[d' m']| |]; cbn; try discriminate. intros H. injection H as ->. eauto. Qed.

(** The list a ranking gives. *)
Definition ranked {A B} (r : res (A * B)) : option A := match r with Ok (x, _) => Some x | _ => None end.

Section WithUnicode.
Context {UC : unicode}.

(** A fresh metric with the given options. *)
Definition metric_with (a : algo) (o : options) : metric :=
  set_scoring_scheme
    (set_candidate_normalization (set_case_sensitivity (metric_new a) (opt_case o)) (opt_norm o))
    (opt_scheme o).

Lemma metric_with_reached a o : metric_reached a o (metric_with a o).
Proof.
  assert (o = with_scheme (with_norm (with_case default_options (opt_case o)) (opt_norm o)) (opt_scheme o)) as E
    by (destruct o; reflexivity).
  rewrite E at 1. do 4 constructor.
Qed.

(** The query a fresh parser makes of a string. *)
Definition the_query (s : str) : query :=
  match parse parser_new s with Ok (q, _) => q | _ => Extended [] end.

Lemma the_query_parse s : exists ps', parse parser_new s = Ok (the_query s, ps').
Proof.
  destruct (c14_parse_total parser_new s) as (q & ps' & E). exists ps'. unfold the_query. rewrite E. reflexivity.
Qed.

Lemma the_query_reached s : query_reached (the_query s).
Proof. destruct (the_query_parse s) as [ps' E]. eapply qr_parse; [constructor|exact E]. Qed.

Lemma the_fuzzy_query s text : Spec.parse_spec s = [[Spec.Term false Spec.KFuzzy text]] ->
  fuzzy_query text (the_query s).
Proof.
  intros H. destruct (the_query_parse s) as [ps' E]. exists parser_new, ps'. left. exists s. auto.
Qed.

(** The parser after a query. *)
Definition parsed (ps : parser) (s : str) : parser :=
  match parse ps s with Ok (_, ps') => ps' | _ => ps end.

(** The metric after a search. *)
Definition searched (m : metric) (s c : str) : metric :=
  match metric_distance_and_ranges m (the_query s) c [] with Ok (_, m', _) => m' | _ => m end.

Lemma searched_reached a o m s c : metric_reached a o m -> metric_reached a o (searched m s c).
Proof.
  intros H. unfold searched. destruct (metric_distance_and_ranges m (the_query s) c []) as [[[d m'] b]| |] eqn:E; try exact H.
  eapply mr_distance_and_ranges; [exact H|apply the_query_reached|exact E].
Qed.

Lemma searched_searches a o m s c : metric_reached a o m -> searches m (the_query s) c (searched m s c).
Proof.
  intros H%metric_reached_options. destruct (parse_correct parser_new s) as (ps' & E & _).
  assert (Q : the_query s = query_of (Spec.parse_spec s)) by (unfold the_query; rewrite E; reflexivity).
  destruct (metric_spec a o m (Spec.parse_spec s) c [] H) as [_ (m' & _ & E')]; [apply parse_spec_ok..|].
  unfold searched. rewrite Q, E'. eapply sr_distance_and_ranges. exact E'.
Qed.

(** A metric which has been used for two searches, with [o] set last. *)
Definition used (a : algo) (o : options) : metric :=
  set_scoring_scheme
    (set_candidate_normalization
      (set_case_sensitivity
        (searched (searched (metric_with a (Options Insensitive true SchemePath)) (txt "fb 'c | !x") (txt "foo/bar/Cx"))
          (txt "rdoc") (txt "/AutomatorDocument.icns"))
        (opt_case o)) (opt_norm o)) (opt_scheme o).

Lemma used_reached a o : metric_reached a o (used a o).
Proof.
  set (o0 := Options Insensitive true SchemePath).
  assert (o = with_scheme (with_norm (with_case o0 (opt_case o)) (opt_norm o)) (opt_scheme o)) as E by (destruct o; reflexivity).
  rewrite E at 1. do 3 constructor. do 2 apply searched_reached. apply metric_with_reached.
Qed.

End WithUnicode.
