(** Properties C96 and C97: rankings of parts of a list of candidates, and queries which both parsers read
    alike. See Properties_results.v for the conventions. *)
From Coq Require Import String.
From Verif Require Import Prelude Chars Normalize Utils Candidate Query Parser Scoring Slab Fzf FzfV1 FzfV2 Api Usage History Spec Ranking.
From Verif Require Import Claims29 ExampleKit.
Local Open Scope nat_scope.

(** ** C96. Candidates do not affect the ranking of others *)

(** The ranking of some of the candidates is the ranking of all without the others. *)
Theorem C96_subset : forall (UC : unicode) a o m1 m2 q (p : str -> bool) cs rs1 rs2 m1' m2',
  metric_reached a o m1 -> metric_reached a o m2 -> query_reached q ->
  rank m1 q cs = Ok (rs1, m1') -> rank m2 q (filter p cs) = Ok (rs2, m2') ->
  rs2 = filter (fun e => p (fst e)) rs1.
Proof. exact (@c96_subset). Qed.
Print Assumptions C96_subset.

(** Adding a candidate anywhere puts it somewhere into the ranking and leaves the rest as it was. *)
Theorem C96_insert : forall (UC : unicode) a o m1 m2 m3 q cs1 c cs2 rs1 rs2 d m1' m2' m3',
  metric_reached a o m1 -> metric_reached a o m2 -> metric_reached a o m3 -> query_reached q ->
  rank m1 q (cs1 ++ cs2) = Ok (rs1, m1') -> rank m2 q (cs1 ++ c :: cs2) = Ok (rs2, m2') ->
  metric_distance m3 q c = Ok (d, m3') ->
  match d with
  | None => rs2 = rs1
  | Some d => exists above below, rs1 = above ++ below /\ rs2 = above ++ (c, d) :: below
  end.
Proof. exact (@c96_insert). Qed.
Print Assumptions C96_insert.

(** The candidates can be ranked in two parts, by two metrics, and the two rankings put together. *)
Theorem C96_chunks : forall (UC : unicode) a o m m1 m2 q cs1 cs2 rs rs1 rs2 m' m1' m2',
  metric_reached a o m -> metric_reached a o m1 -> metric_reached a o m2 -> query_reached q ->
  rank m q (cs1 ++ cs2) = Ok (rs, m') -> rank m1 q cs1 = Ok (rs1, m1') -> rank m2 q cs2 = Ok (rs2, m2') ->
  rs = merge_by (not_after distance_cmp) rs1 rs2.
Proof. exact (@c96_chunks). Qed.
Print Assumptions C96_chunks.

Example C96_example (UC := latin) :
  let cs1 := [txt "fxb"; txt "foo bar"; txt "zip"] in
  let cs2 := [txt "fyb"; txt "fb"] in
  let m := used AlgoV2 default_options in
  let q := the_query (txt "fb") in
  metric_reached AlgoV2 default_options m /\ query_reached q
  /\ exists m0 m1 m2 m3 m4,
     rank m q (cs1 ++ cs2)
     = Ok ([(txt "fb", Distance 62); (txt "foo bar", Distance 57); (txt "fxb", Distance 49); (txt "fyb", Distance 49)], m0)
  /\ rank m0 q cs1 = Ok ([(txt "foo bar", Distance 57); (txt "fxb", Distance 49)], m1)
  /\ rank m1 q cs2 = Ok ([(txt "fb", Distance 62); (txt "fyb", Distance 49)], m2)
  /\ rank m2 q (filter (fun c => length c =? 3) (cs1 ++ cs2)) = Ok ([(txt "fxb", Distance 49); (txt "fyb", Distance 49)], m3)
  /\ rank m3 q ([txt "fxb"; txt "foo bar"] ++ cs2)
     = Ok ([(txt "fb", Distance 62); (txt "foo bar", Distance 57); (txt "fxb", Distance 49); (txt "fyb", Distance 49)], m4).
Proof.
  cbv zeta. split; [apply used_reached|]. split; [apply the_query_reached|]. do 5 eexists.
  split; [vm_compute; reflexivity|]. split; [vm_compute; reflexivity|]. split; [vm_compute; reflexivity|].
  split; [vm_compute; reflexivity|]. vm_compute; reflexivity.
Qed.

(** ** C97. Queries without special characters mean the same to both parsers *)

(** A text with no [!], [']  or [^] at its start, no [$] at its end, and other than [|]: searching for it without
    the extended syntax is the same as searching for it with spaces escaped. *)
Theorem C97_plain : forall (UC : unicode) a o m ps ps' w c buf, metric_reached a o m -> plain w -> w <> [124%N] ->
  find_raw ps' m w c <> Panic ->
  find_raw ps' m w c = find ps m (escape w) c
  /\ find_ranges_raw ps' m w c buf = find_ranges ps m (escape w) c buf.
Proof. exact (@c97). Qed.
Print Assumptions C97_plain.

(** A text with spaces, a backslash before one, a [|], and sigils inside. Each condition on the text is needed:
    [!], [^], ['], [$] and [|] are read differently, and so are spaces which are not escaped. *)
Example C97_example (UC := latin) :
  let m := used AlgoV2 default_options in
  let raw s c := find_raw parser_new m s c in
  let ext s c := find parser_new m s c in
  plain (txt "a!\ | b^") /\ escape (txt "a!\ | b^") = txt "a!\\ |\ b^"
  /\ find_ranges_raw parser_new m (txt "a!\ | b^") (txt "xa!\ | b^y") [] = Ok (Some (from_score 194), [(1, 9)])
  /\ find_ranges parser_new m (txt "a!\\ |\ b^") (txt "xa!\ | b^y") [] = Ok (Some (from_score 194), [(1, 9)])
  /\ raw (txt "!a") (txt "b") <> ext (txt "!a") (txt "b") /\ raw (txt "^a") (txt "a") <> ext (txt "^a") (txt "a") /\ raw (txt "'ab") (txt "ab") <> ext (txt "'ab") (txt "ab")
  /\ raw (txt "a$") (txt "a") <> ext (txt "a$") (txt "a") /\ raw (txt "|") (txt "a") <> ext (txt "|") (txt "a") /\ raw (txt "a b") (txt "b a") <> ext (txt "a b") (txt "b a").
Proof.
  cbv zeta. split.
  { split; [discriminate|]. split; [|discriminate]. cbn. intuition discriminate. }
  split; [vm_compute; reflexivity|]. split; [vm_compute; reflexivity|]. split; [vm_compute; reflexivity|].
  split; [vm_compute; discriminate|]. split; [vm_compute; discriminate|]. split; [vm_compute; discriminate|].
  split; [vm_compute; discriminate|]. split; vm_compute; discriminate.
Qed.
