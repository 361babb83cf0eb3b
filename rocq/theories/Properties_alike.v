(** Properties C60 to C64: what the results do not depend on. See Properties_results.v for the
    conventions. *)
From Coq Require Import Sorted String.
From Verif Require Import Prelude Chars Normalize Utils Candidate Query Parser Scoring Slab Fzf FzfV1 FzfV2 Api History Spec.
From Verif Require Import Claims1 Claims2 Claims3 Claims4 Claims5 Claims6 Claims7 Claims8 Claims9 ExampleKit.
Local Open Scope nat_scope.

(** ** C60. Unicode versions and platforms *)

(** Two versions of the Unicode tables, or two platforms, which agree about the upper case letters of the query
    and about the classes of the characters of the candidate give the same results. *)
Theorem C60_other_tables : forall UC UC' a o m m' ps ps' s c buf,
  @metric_reached UC a o m -> @metric_reached UC' a o m' ->
  (forall x, In x s -> @is_uppercase UC x = @is_uppercase UC' x) ->
  (forall y, In y c -> @place_of UC (opt_scheme o) y = @place_of UC' (opt_scheme o) y) ->
  @find UC ps m s c = @find UC' ps' m' s c
  /\ @find_ranges UC ps m s c buf = @find_ranges UC' ps' m' s c buf
  /\ @find_raw UC ps m s c = @find_raw UC' ps m' s c
  /\ @find_ranges_raw UC ps m s c buf = @find_ranges_raw UC' ps m' s c buf.
Proof. exact (@other_tables). Qed.
Print Assumptions C60_other_tables.

(** In particular, the tables do not matter for ASCII. *)
Theorem C60_ascii : forall UC UC' a o m m' ps ps' s c buf,
  @metric_reached UC a o m -> @metric_reached UC' a o m' ->
  (forall x, In x (s ++ c) -> (x < 128)%N) -> @cfg_windows UC = @cfg_windows UC' ->
  @find UC ps m s c = @find UC' ps' m' s c
  /\ @find_ranges UC ps m s c buf = @find_ranges UC' ps' m' s c buf
  /\ @find_raw UC ps m s c = @find_raw UC' ps m' s c
  /\ @find_ranges_raw UC ps m s c buf = @find_ranges_raw UC' ps m' s c buf.
Proof. exact (@other_tables_ascii). Qed.
Print Assumptions C60_ascii.

Example C60_example :
  @metric_reached latin AlgoV2 default_options (@used latin AlgoV2 default_options)
  /\ @metric_reached no_tables AlgoV2 default_options (@metric_with no_tables AlgoV2 default_options)
  /\ (forall x, In x [233; 8594]%N -> @is_uppercase latin x = @is_uppercase no_tables x)
  /\ (forall y, In y (txt "foo /" ++ [8594%N] ++ txt "e") -> @place_of latin SchemeDefault y = @place_of no_tables SchemeDefault y)
  /\ @find_ranges latin parser_new (@used latin AlgoV2 default_options) [8594%N] (txt "foo /" ++ [8594%N] ++ txt "e") []
     = Ok (Some (Distance 32), [(5, 8)])
  /\ @find_ranges no_tables parser_new (@metric_with no_tables AlgoV2 default_options) [8594%N] (txt "foo /" ++ [8594%N] ++ txt "e") []
     = Ok (Some (Distance 32), [(5, 8)]).
Proof.
  split; [apply used_reached|]. split; [apply metric_with_reached|].
  split; [intros x [<-|[<-|[]]]; reflexivity|].
  split; [intros y H; vm_compute in H; repeat (destruct H as [<-|H]; [reflexivity|]); destruct H|].
  split; vm_compute; reflexivity.
Qed.

(** ** C61. The case of the query when case is ignored *)

Theorem C61_query_case : forall (UC : unicode) a o m m' ps ps' s s' c buf,
  metric_reached a o m -> metric_reached a o m' -> opt_case o = Insensitive ->
  Forall2 (same_char false) s s' ->
  find ps m s c = find ps' m' s' c /\ find_ranges ps m s c buf = find_ranges ps' m' s' c buf
  /\ find_raw ps m s c = find_raw ps m' s' c /\ find_ranges_raw ps m s c buf = find_ranges_raw ps m' s' c buf.
Proof. exact (@query_case). Qed.
Print Assumptions C61_query_case.

Example C61_example (UC := latin) :
  metric_reached AlgoV1 (Options Insensitive true SchemePath) (used AlgoV1 (Options Insensitive true SchemePath))
  /\ Forall2 (same_char false) (txt "^Fo !'ZIP bAR$") (txt "^fO !'zip BAr$")
  /\ find_ranges parser_new (used AlgoV1 (Options Insensitive true SchemePath)) (txt "^Fo !'ZIP bAR$") (txt "foo/bar") []
     = Ok (Some (Distance 143), [(0, 2); (4, 7)])
  /\ find_ranges parser_new (used AlgoV1 (Options Insensitive true SchemePath)) (txt "^fO !'zip BAr$") (txt "foo/bar") []
     = Ok (Some (Distance 143), [(0, 2); (4, 7)]).
Proof.
  split; [apply used_reached|]. split; [vm_compute; repeat constructor|]. split; vm_compute; reflexivity.
Qed.

(** ** C62. The case of the candidate when case is ignored *)

(** It does not matter for the question whether there is a match. *)
Theorem C62_candidate_case : forall (UC : unicode) a o m m' ps ps' s c c',
  metric_reached a o m -> metric_reached a o m' -> case_ignored o s ->
  Forall2 (same_char false) c c' ->
  accepts (find ps m s c) <-> accepts (find ps' m' s c').
Proof. exact (@candidate_case). Qed.
Print Assumptions C62_candidate_case.

Example C62_example (UC := latin) :
  case_ignored default_options (txt "fb !x")
  /\ Forall2 (same_char false) (txt "foo bar") (txt "FoO bAr")
  /\ find parser_new (used AlgoV2 default_options) (txt "fb !x") (txt "foo bar")
     = Ok (Some (Distance 57))
  /\ find parser_new (used AlgoV2 default_options) (txt "fb !x") (txt "FoO bAr")
     = Ok (Some (Distance 57)).
Proof.
  split; [right; split; [reflexivity|]; intros x H; vm_compute in H; repeat (destruct H as [<-|H]; [reflexivity|]); destruct H|].
  split; [vm_compute; repeat constructor|]. split; vm_compute; reflexivity.
Qed.

(** ** C63. The accents of the candidate when normalization is enabled *)

Theorem C63_candidate_accents : forall (UC : unicode) a o m m' ps ps' s c,
  metric_reached a o m -> metric_reached a o m' -> opt_norm o = true -> (forall x, In x s -> normal_form x = x) ->
  accepts (find ps m s c) <-> accepts (find ps' m' s (map normal_form c)).
Proof. exact (@candidate_accents). Qed.
Print Assumptions C63_candidate_accents.

Example C63_example (UC := latin) :
  opt_norm (Options Sensitive true SchemeDefault) = true
  /\ (forall x, In x (txt "fe !x") -> normal_form x = x)
  /\ map normal_form [102; 243; 233]%N = txt "foe"
  /\ find parser_new (used AlgoV2 (Options Sensitive true SchemeDefault)) (txt "fe !x") [102; 243; 233]%N
     = Ok (Some (Distance 49))
  /\ find parser_new (used AlgoV2 (Options Sensitive true SchemeDefault)) (txt "fe !x") (txt "foe")
     = Ok (Some (Distance 49)).
Proof.
  split; [reflexivity|].
  split; [intros x H; vm_compute in H; repeat (destruct H as [<-|H]; [vm_compute; reflexivity|]); destruct H|].
  repeat split; vm_compute; reflexivity.
Qed.

(** ** C64. What a search sees of a candidate *)

(** The distance depends on the characters of the candidate only through their classes, which of
    them are spaces, and which characters of the query they agree with. The ranges depend on
    their widths, too. *)
Theorem C64_look_alike : forall (UC : unicode) a o m m' ps ps' s c c' buf,
  metric_reached a o m -> metric_reached a o m' ->
  Forall2 (fun y y' => place_of (opt_scheme o) y = place_of (opt_scheme o) y' /\ (y = 32%N <-> y' = 32%N)
             /\ forall sens x, In x s -> agrees sens (opt_norm o) x y <-> agrees sens (opt_norm o) x y') c c' ->
  find ps m s c = find ps' m' s c'
  /\ (Forall2 (fun y y' => len_utf8 y = len_utf8 y') c c' -> find_ranges ps m s c buf = find_ranges ps' m' s c' buf).
Proof. exact (@look_alike). Qed.
Print Assumptions C64_look_alike.

Example C64_example (UC := latin) :
  Forall2 (fun y y' => place_of (opt_scheme default_options) y = place_of (opt_scheme default_options) y' /\ (y = 32%N <-> y' = 32%N)
             /\ forall sens x, In x (txt "f") -> agrees sens (opt_norm default_options) x y <-> agrees sens (opt_norm default_options) x y')
    (txt "a-f b") (txt "x+f y")
  /\ Forall2 (fun y y' => len_utf8 y = len_utf8 y') (txt "a-f b") (txt "x+f y")
  /\ find_ranges parser_new (used AlgoV2 default_options) (txt "f") (txt "a-f b") []
     = Ok (Some (Distance 32), [(2, 3)])
  /\ find_ranges parser_new (used AlgoV2 default_options) (txt "f") (txt "x+f y") []
     = Ok (Some (Distance 32), [(2, 3)]).
Proof.
  split.
  { repeat (constructor; [split; [vm_compute; reflexivity|]; split; [split; intros H; discriminate H || reflexivity|];
      intros [] x [<-|[]]; cbn; split; intros [H|[H _]]; discriminate H || (left; exact H)|]). constructor. }
  split; [repeat constructor|]. split; vm_compute; reflexivity.
Qed.
