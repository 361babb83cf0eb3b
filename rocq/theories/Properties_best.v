(** Properties C67 to C69: the best possible score, and text around the match. See Properties_results.v for the conventions. *)
From Coq Require Import String.
From Verif Require Import Prelude Chars Normalize Utils Candidate Query Parser Scoring Fzf FzfV1 FzfV2 Api History Spec.
From Verif Require Import Claims1 Claims11 Claims12 Claims13 Claims48 ExampleKit.
Local Open Scope nat_scope.


(** ** C67. The best possible score, and candidates which reach it *)

(** No candidate has a better score for a term than [best_score], which depends on the scoring scheme and on the
    length of the term only. *)
Theorem C67_bound : forall (UC : unicode) a o m ps s k text c d,
  metric_reached a o m -> parse_spec s = [[Term false k text]] ->
  find ps m s c = Ok (Some d) ->
  (into_score d <= best_score (opt_scheme o) (length text))%Z.
Proof. exact (@c67_bound). Qed.
Print Assumptions C67_bound.

Theorem C67_bound_fuzzy : forall (UC : unicode) a o m text q c d m',
  metric_reached a o m -> fuzzy_query text q -> text <> [] ->
  metric_distance m q c = Ok (Some d, m') ->
  (into_score d <= best_score (opt_scheme o) (length text))%Z.
Proof. exact (@c67_bound_fuzzy). Qed.
Print Assumptions C67_bound_fuzzy.

(** A candidate which starts with the text of the term has this score, and the occurrence at its start is what is
    highlighted; so no candidate is ranked before it. The first character must be worth the most points:
    see C67_word_start. *)
Theorem C67_start : forall (UC : unicode) a o m ps s k text mid post buf,
  metric_reached a o m -> parse_spec s = [[Term false k text]] ->
  Forall2 (agreement o text) text mid ->
  bonus_of (opt_scheme o) (mid ++ post) 0 = top_points (opt_scheme o) ->
  (k = KPrefix -> hd 0%N text <> 32%N) -> (k = KSuffix \/ k = KEqual -> post = []) ->
  find_ranges ps m s (mid ++ post) buf
    = Ok (Some (from_score (best_score (opt_scheme o) (length text))), buf ++ [(0, byte_len mid)]).
Proof. exact (@c67_start). Qed.
Print Assumptions C67_start.

Theorem C67_unbeatable : forall (UC : unicode) a o m m' ps ps' s k text mid post c d,
  metric_reached a o m -> metric_reached a o m' -> parse_spec s = [[Term false k text]] ->
  Forall2 (agreement o text) text mid ->
  bonus_of (opt_scheme o) (mid ++ post) 0 = top_points (opt_scheme o) ->
  (k = KPrefix -> hd 0%N text <> 32%N) -> (k = KSuffix \/ k = KEqual -> post = []) ->
  find ps' m' s c = Ok (Some d) ->
  exists d0, find ps m s (mid ++ post) = Ok (Some d0) /\ distance_cmp d0 d <> Gt.
Proof. exact (@c67_unbeatable). Qed.
Print Assumptions C67_unbeatable.

(** FzfV2 finds such an occurrence anywhere in the candidate: if there are several, it highlights the first. *)
Theorem C67_v2_word : forall (UC : unicode) o m text q c k buf,
  metric_reached AlgoV2 o m -> fuzzy_query text q -> text <> [] ->
  occurs_at (agreement o text) text c k ->
  bonus_of (opt_scheme o) c k = top_points (opt_scheme o) ->
  (forall k', k' < k -> occurs_at (agreement o text) text c k' -> (bonus_of (opt_scheme o) c k' < top_points (opt_scheme o))%Z) ->
  exists m', metric_distance_and_ranges m q c buf
    = Ok (Some (from_score (best_score (opt_scheme o) (length text))), m',
          buf ++ [(byte_len (firstn k c), byte_len (firstn (k + length text) c))]).
Proof. exact (@c67_v2_word). Qed.
Print Assumptions C67_v2_word.

(** Letters have the most points at the start, after spaces and, for paths, after slashes. *)
Theorem C67_word_start : forall (UC : unicode) s c k x,
  nth_error c k = Some x -> ascii_letter x ->
  k = 0 \/ nth_error c (k - 1) = Some (match s with SchemePath => 47 | _ => 32 end)%N ->
  bonus_of s c k = top_points s.
Proof. exact (@c67_word_start). Qed.
Print Assumptions C67_word_start.

Example C67_example (UC := latin) :
  best_score SchemeDefault 3 = 88%Z
  /\ parse_spec (txt "bar") = [[Term false KFuzzy (txt "bar")]]
  /\ find_ranges parser_new (used AlgoV1 default_options) (txt "bar") (txt "Barometer") [(9, 9)]
     = Ok (Some (Distance 88), [(9, 9); (0, 3)])
  /\ find_ranges parser_new (used AlgoV1 default_options) (txt "^bar") (txt "Barometer") []
     = Ok (Some (Distance 88), [(0, 3)])
  /\ find_ranges parser_new (used AlgoV2 default_options) (txt "bar$") (txt "baR") []
     = Ok (Some (Distance 88), [(0, 3)])
  /\ find_ranges parser_new (used AlgoV2 default_options) (txt "bar") (txt "b-a-r foobar bar bar") []
     = Ok (Some (Distance 88), [(13, 16)])
  /\ find_ranges parser_new (used AlgoV2 (Options Smart false SchemePath)) (txt "bar") (txt "b a r foobar bar/bar") []
     = Ok (Some (Distance 84), [(17, 20)])
  /\ find_ranges parser_new (used AlgoV1 default_options) (txt "bar") (txt "b-a-r foobar bar bar") []
     = Ok (Some (Distance 78), [(0, 1); (2, 3); (4, 5)])
  /\ Forall2 (agreement default_options (txt "bar")) (txt "bar") (txt "Bar")
  /\ bonus_of SchemeDefault (txt "Barometer") 0 = top_points SchemeDefault
  /\ fuzzy_query (txt "bar") (the_query (txt "bar"))
  /\ occurs_at (agreement default_options (txt "bar")) (txt "bar") (txt "b-a-r foobar bar bar") 13
  /\ bonus_of SchemeDefault (txt "b-a-r foobar bar bar") 13 = top_points SchemeDefault
  /\ map (bonus_of SchemeDefault (txt "b-a-r foobar bar bar")) [0; 2; 4; 6; 9]
     = [10; 8; 8; 10; 0]%Z.
Proof.
  assert (F : Forall2 (agreement default_options (txt "bar")) (txt "bar") (txt "bar")) by (vm_compute; repeat constructor).
  do 8 (split; [vm_compute; reflexivity|]).
  split; [vm_compute; repeat constructor|]. split; [vm_compute; reflexivity|].
  split; [apply the_fuzzy_query; vm_compute; reflexivity|].
  split; [exists (txt "b-a-r foobar "), (txt "bar"), (txt " bar"); repeat split; auto|].
  split; vm_compute; reflexivity.
Qed.

(** ** C68. Text around a candidate in which no match can start or end *)

(** Text before the candidate none of whose characters agrees with the first character of a term, and text after it none
    of whose characters agrees with the last character of a term, changes nothing: the distance is the same and the
    ranges move with the text. For terms which are anchored it must consist of spaces. The text before must end such
    that the first character of the candidate is worth the points of a first character. *)
Theorem C68_around : forall (UC : unicode) a o m m' ps ps' s pre c post buf,
  metric_reached a o m -> metric_reached a o m' ->
  pre = [] \/ place_of (opt_scheme o) (last pre 0%N) = before_start (opt_scheme o) ->
  Forall (Forall (fun t =>
      (forall y, In y pre -> ~ agreement o (t_text t) (hd 0%N (t_text t)) y)
      /\ (forall y, In y post -> ~ agreement o (t_text t) (last (t_text t) 0%N) y)
      /\ (t_kind t = KPrefix \/ t_kind t = KEqual -> pre = spaces (length pre))
      /\ (t_kind t = KSuffix \/ t_kind t = KEqual -> post = spaces (length post)))) (parse_spec s) ->
  exists d rs, find_ranges ps m s c buf = Ok (d, buf ++ rs)
    /\ find_ranges ps' m' s (pre ++ c ++ post) buf
       = Ok (d, buf ++ map (fun r => (byte_len pre + fst r, byte_len pre + snd r)) rs)
    /\ find ps' m' s (pre ++ c ++ post) = Ok d.
Proof. exact (@c68_around). Qed.
Print Assumptions C68_around.

(** So spaces around the candidate do not matter to queries without terms which start or end with (escaped) spaces.
    For paths, this is true of the spaces after it only. *)
Theorem C68_spaces : forall (UC : unicode) a o m m' ps ps' s n c k buf,
  metric_reached a o m -> metric_reached a o m' -> n = 0 \/ opt_scheme o <> SchemePath ->
  Forall (Forall (fun t => hd 0%N (t_text t) <> 32%N /\ last (t_text t) 0%N <> 32%N)) (parse_spec s) ->
  exists d rs, find_ranges ps m s c buf = Ok (d, buf ++ rs)
    /\ find_ranges ps' m' s (spaces n ++ c ++ spaces k) buf = Ok (d, buf ++ map (fun r => (n + fst r, n + snd r)) rs)
    /\ find ps' m' s (spaces n ++ c ++ spaces k) = Ok d.
Proof. exact (@c68_spaces). Qed.
Print Assumptions C68_spaces.

Example C68_example (UC := latin) :
  let s := txt "fb | x ^foo !'zip" in
  let pre := txt "  " in let post := txt ":42 fizz" in
  metric_reached AlgoV2 default_options (used AlgoV2 default_options)
  /\ place_of SchemeDefault (last pre 0%N) = before_start SchemeDefault
  /\ Forall (Forall (fun t =>
      (forall y, In y pre -> ~ agreement default_options (t_text t) (hd 0%N (t_text t)) y)
      /\ (forall y, In y post -> ~ agreement default_options (t_text t) (last (t_text t) 0%N) y)
      /\ (t_kind t = KPrefix \/ t_kind t = KEqual -> pre = spaces (length pre))
      /\ (t_kind t = KSuffix \/ t_kind t = KEqual -> post = spaces (length post)))) (parse_spec s)
  /\ find_ranges parser_new (used AlgoV2 default_options) (txt "fb | x ^foo !'zip") (txt "foo_bar.rs") [(1, 2)]
     = Ok (Some (Distance 143), [(1, 2); (0, 3); (4, 5)])
  /\ find_ranges parser_new (used AlgoV2 default_options) (txt "fb | x ^foo !'zip") (txt "  foo_bar.rs:42 fizz") [(1, 2)]
     = Ok (Some (Distance 143), [(1, 2); (2, 5); (6, 7)]).
Proof.
  cbv zeta. split; [apply used_reached|]. split; [reflexivity|]. split; [|split; vm_compute; reflexivity].
  assert (K : forall t, In t [Term false KFuzzy (txt "fb"); Term false KFuzzy (txt "x"); Term false KPrefix (txt "foo"); Term true KFuzzy (txt "zip")] ->
    (forall y, In y (txt "  ") -> ~ agreement default_options (t_text t) (hd 0%N (t_text t)) y)
    /\ (forall y, In y (txt ":42 fizz") -> ~ agreement default_options (t_text t) (last (t_text t) 0%N) y)
    /\ (t_kind t = KPrefix \/ t_kind t = KEqual -> txt "  " = spaces (length (txt "  ")))
    /\ (t_kind t = KSuffix \/ t_kind t = KEqual -> txt ":42 fizz" = spaces (length (txt ":42 fizz")))).
  { intros t Ht.
    assert (Es : sensitive_for Smart (t_text t) = false)
      by (destruct Ht as [<-|[<-|[<-|[<-|[]]]]]; vm_compute; reflexivity).
    unfold agreement. cbn [opt_case opt_norm default_options]. rewrite Es.
    split; [|split; [|split; [reflexivity|]]].
    - intros y Hy A. apply NormalizeProofs.char_eq_agrees in A.
      assert (E : forallb (fun y => negb (char_eq false false (hd 0%N (t_text t)) y)) (txt "  ") = true)
        by (destruct Ht as [<-|[<-|[<-|[<-|[]]]]]; vm_compute; reflexivity).
      rewrite forallb_forall in E. specialize (E y Hy). rewrite A in E. discriminate.
    - intros y Hy A. apply NormalizeProofs.char_eq_agrees in A.
      assert (E : forallb (fun y => negb (char_eq false false (last (t_text t) 0%N) y)) (txt ":42 fizz") = true)
        by (destruct Ht as [<-|[<-|[<-|[<-|[]]]]]; vm_compute; reflexivity).
      rewrite forallb_forall in E. specialize (E y Hy). rewrite A in E. discriminate.
    - destruct Ht as [<-|[<-|[<-|[<-|[]]]]]; intros [H|H]; discriminate H. }
  change (parse_spec (txt "fb | x ^foo !'zip"))
    with [[Term false KFuzzy (txt "fb"); Term false KFuzzy (txt "x")]; [Term false KPrefix (txt "foo")]; [Term true KFuzzy (txt "zip")]].
  repeat (apply Forall_cons || apply Forall_nil); apply K; cbn; tauto.
Qed.

(** ** C69. Text appended to a candidate *)

(** One would expect that a candidate does not get a worse distance from FzfV2 when text is appended: the alignments which it had are still
    there. But the points of a gap depend on whether another character follows which agrees. (FzfV1 ignores the appended text: C42.) *)
Theorem C69_append_refuted : forall (UC : unicode), ~ (forall o m m' text q c post d m1 d' m1',
  metric_reached AlgoV2 o m -> metric_reached AlgoV2 o m' -> fuzzy_query text q ->
  metric_distance m q c = Ok (Some d, m1) -> metric_distance m' q (c ++ post) = Ok (Some d', m1') ->
  distance_cmp d' d <> Gt).
Proof.
  intros UC H.
  destruct (shown_ok (metric_distance (metric_with AlgoV2 default_options) (the_query (txt "acb")) (txt "ac__xA cbA")) (Some (from_score 81)))
    as (m1 & E1); [vm_compute; reflexivity|].
  destruct (shown_ok (metric_distance (metric_with AlgoV2 default_options) (the_query (txt "acb")) (txt "ac__xA cbA" ++ txt "B")) (Some (from_score 70)))
    as (m2 & E2); [vm_compute; reflexivity|].
  assert (Q : fuzzy_query (txt "acb") (the_query (txt "acb"))) by (apply the_fuzzy_query; vm_compute; reflexivity).
  apply (H _ _ _ _ _ _ _ _ _ _ _ (metric_with_reached AlgoV2 default_options) (metric_with_reached AlgoV2 default_options) Q E1 E2).
  reflexivity.
Qed.
Print Assumptions C69_append_refuted.

(** What holds: the distance is not worse if no query character but the last one occurs in the appended text or
    behind the last [y] that agrees with the last query character. (If the last query character does not occur in the appended
    text the distance is the same: C68.) Missing: other texts, for which it is false. *)
Theorem C69_append_partial : forall (UC : unicode) o m m' text q u y v post d m1,
  metric_reached AlgoV2 o m -> metric_reached AlgoV2 o m' -> fuzzy_query text q ->
  agreement o text (last text 0%N) y ->
  (forall z, In z v -> ~ agreement o text (last text 0%N) z) ->
  (forall x z, In x (removelast text) -> In z (v ++ post) -> ~ agreement o text x z) ->
  metric_distance m q (u ++ y :: v) = Ok (Some d, m1) ->
  exists d' m1', metric_distance m' q ((u ++ y :: v) ++ post) = Ok (Some d', m1') /\ distance_cmp d' d <> Gt.
Proof. exact (@c69_append_partial). Qed.
Print Assumptions C69_append_partial.

Theorem C69_single_partial : forall (UC : unicode) o m m' x q c post d m1,
  metric_reached AlgoV2 o m -> metric_reached AlgoV2 o m' -> fuzzy_query [x] q ->
  metric_distance m q c = Ok (Some d, m1) ->
  exists d' m1', metric_distance m' q (c ++ post) = Ok (Some d', m1') /\ distance_cmp d' d <> Gt.
Proof. exact (@c69_single_partial). Qed.
Print Assumptions C69_single_partial.

(** In general the appended text costs at most 2 points for queries of two characters, and 12 more for each further
    character. (The example of C69_append_refuted loses 11 of at most 14.) *)
Theorem C69_loss_partial : forall (UC : unicode) o m m' text q c post d m1,
  metric_reached AlgoV2 o m -> metric_reached AlgoV2 o m' -> fuzzy_query text q ->
  metric_distance m q c = Ok (Some d, m1) ->
  exists d' m1', metric_distance m' q (c ++ post) = Ok (Some d', m1')
    /\ (into_score d <= into_score d' + Z.max 0 (12 * Z.of_nat (length text) - 22))%Z.
Proof. exact (@c69_loss). Qed.
Print Assumptions C69_loss_partial.

Example C69_example (UC := latin) :
  metric_reached AlgoV2 default_options (used AlgoV2 default_options)
  /\ fuzzy_query (txt "fob") (the_query (txt "fob"))
  /\ agreement default_options (txt "fob") (last (txt "fob") 0%N) 98%N
  /\ (forall z, In z (txt "-x") -> ~ agreement default_options (txt "fob") (last (txt "fob") 0%N) z)
  /\ (forall x z, In x (removelast (txt "fob")) -> In z (txt "-x" ++ txt " Bar") -> ~ agreement default_options (txt "fob") x z)
  /\ find_ranges parser_new (used AlgoV2 default_options) (txt "fob") (txt "foo.rab-x") []
     = Ok (Some (Distance 70), [(0, 2); (6, 7)])
  /\ find_ranges parser_new (used AlgoV2 default_options) (txt "fob") (txt "foo.rab-x Bar") []
     = Ok (Some (Distance 76), [(0, 2); (10, 11)]).
Proof.
  split; [apply used_reached|]. split; [apply the_fuzzy_query; vm_compute; reflexivity|].
  assert (Es : sensitive_for (opt_case default_options) (txt "fob") = false) by (vm_compute; reflexivity).
  unfold agreement. rewrite Es. cbn [opt_norm default_options]. split; [apply NormalizeProofs.char_eq_agrees; vm_compute; reflexivity|].
  split; [|split; [|split; vm_compute; reflexivity]].
  - intros z Hz A. apply NormalizeProofs.char_eq_agrees in A.
    assert (E : forallb (fun z => negb (char_eq false false (last (txt "fob") 0%N) z)) (txt "-x") = true) by (vm_compute; reflexivity).
    rewrite forallb_forall in E. specialize (E z Hz). rewrite A in E. discriminate.
  - intros x z Hx Hz A. apply NormalizeProofs.char_eq_agrees in A.
    assert (E : forallb (fun x => forallb (fun z => negb (char_eq false false x z)) (txt "-x" ++ txt " Bar")) (removelast (txt "fob")) = true)
      by (vm_compute; reflexivity).
    rewrite forallb_forall in E. specialize (E x Hx). rewrite forallb_forall in E. specialize (E z Hz). rewrite A in E. discriminate.
Qed.
