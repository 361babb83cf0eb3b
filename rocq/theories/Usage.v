(** Programs of the repository which use the public API: the ranking shown in the crate's
    documentation and the fuzz target; and the Debug implementations of the metrics. *)
From Verif Require Import Prelude Chars Utils Candidate Query Parser Scoring Fzf FzfV1 FzfV2 Api.

Section WithUnicode.
Context {UC : unicode}.

(** filter_map(|city| fzf.distance(query, city).map(|dist| (city, dist))).collect(),
    /repo/src/lib.rs:37-41, /repo/examples/cities.rs:15-19: the metric is a mutable
    variable which every call of the closure uses *)
Fixpoint filter_all (m : metric) (q : query) (cs : list str) : res (list (str * distance) * metric) :=
  match cs with
  | [] => Ok ([], m)
  | c :: cs' =>
      let* '(d, m) := metric_distance m q c in
      let* '(rs, m) := filter_all m q cs' in
      Ok (match d with Some d => (c, d) :: rs | None => rs end, m)
  end.

(** One step of a stable insertion sort: [x] comes before elements which are not less.
    The sort of lib.rs:45 (documentation). *)
Fixpoint insert_by_distance (x : str * distance) (l : list (str * distance)) : list (str * distance) :=
  match l with
  | [] => [x]
  | y :: l' =>
      match distance_cmp (snd x) (snd y) with
      | Gt => y :: insert_by_distance x l'
      | _ => x :: l
      end
  end.

(** results.sort_by_key(|(_city, dist)| *dist), /repo/src/lib.rs:45. The merge sort of alloc is
    replaced by an insertion sort: both are stable, and a stable sort is
    determined by its result being sorted and stable. *)
Fixpoint sort_by_distance (l : list (str * distance)) : list (str * distance) :=
  match l with
  | [] => []
  | x :: l' => insert_by_distance x (sort_by_distance l')
  end.

(** The example as a whole, /repo/src/lib.rs:37-45 *)
Definition rank (m : metric) (q : query) (cs : list str) : res (list (str * distance) * metric) :=
  let* '(rs, m) := filter_all m q cs in
  Ok (sort_by_distance rs, m).

(** &candidate[range] on a str: panics unless both ends are char boundaries, in order. fuzz/fuzz_targets/fzf.rs:54, 64. *)
Definition str_index (c : str) (r : nat * nat) : res unit :=
  if (fst r <=? snd r) && is_char_boundary (encode c) (fst r) && is_char_boundary (encode c) (snd r)
  then Ok tt else Panic.

(** for range in ranges.as_slice() { let _ = &candidate[range.clone()]; }, fzf.rs:53-55 *)
Fixpoint index_all (c : str) (rs : list (nat * nat)) : res unit :=
  match rs with
  | [] => Ok tt
  | r :: rs' => let* _ := str_index c r in index_all c rs'
  end.

(** set_candidate_normalization(..).set_case_sensitivity(..).set_scoring_scheme(..).
    fuzz/fuzz_targets/fzf.rs:47-50, 57-60; fzf_v1.rs:130-198, fzf_v2.rs:141-209. *)
Definition set_options (m : metric) (cs : case_sensitivity) (b : bool) (sch : fzf_scheme) : metric :=
  set_scoring_scheme (set_case_sensitivity (set_candidate_normalization m b) cs) sch.

(** The closure given to with_opts, /repo/fuzz/fuzz_targets/fzf.rs:46-66 *)
Definition fuzz_step (q : query) (c : str) (cs : case_sensitivity) (b : bool) (sch : fzf_scheme)
    (st : metric * metric * list (nat * nat)) : res (metric * metric * list (nat * nat)) :=
  let '(m1, m2, ranges) := st in
  let* '(_, m1, ranges) := metric_distance_and_ranges (set_options m1 cs b sch) q c ranges in
  let* _ := index_all c ranges in
  let* '(_, m2, ranges) := metric_distance_and_ranges (set_options m2 cs b sch) q c ranges in
  let* _ := index_all c ranges in
  Ok (m1, m2, ranges).

(** with_opts, /repo/fuzz/fuzz_targets/fzf.rs:14-32: the three loops, unrolled *)
Definition fuzz_options : list (case_sensitivity * bool * fzf_scheme) :=
  flat_map (fun cs => flat_map (fun b => map (fun sch => (cs, b, sch)) [SchemeDefault; SchemePath; SchemeHistory])
                        [true; false])
    [Sensitive; Insensitive; Smart].

(** The calls of the fuzz target for each of the settings, fuzz/fuzz_targets/fzf.rs:14-31, 46-66 *)
Fixpoint fuzz_loop (q : query) (c : str) (os : list (case_sensitivity * bool * fzf_scheme))
    (st : metric * metric * list (nat * nat)) : res (metric * metric * list (nat * nat)) :=
  match os with
  | [] => Ok st
  | (cs, b, sch) :: os' => let* st := fuzz_step q c cs b sch st in fuzz_loop q c os' st
  end.

(** fuzz_target!, /repo/fuzz/fuzz_targets/fzf.rs:34-67 *)
Definition fuzz_target (query candidate : str) : res (metric * metric * list (nat * nat)) :=
  let* '(q, _) := parse parser_new query in
  fuzz_loop q candidate fuzz_options (metric_new AlgoV1, metric_new AlgoV2, []).

(** The name and the fields which {:?} prints for a metric; None stands for no output at all. The
    text produced by debug_struct and the derived implementations is not modelled.
    fzf_v1.rs:72-87, fzf_v2.rs:82-97 *)
Definition metric_debug (m : metric) : option (algo * bool * case_sensitivity * fzf_scheme) :=
  match m with
  | V1 m =>
      match from_inner (v1_scoring_scheme m) with
      | None => None
      | Some sch => Some (AlgoV1, v1_candidate_normalization m, v1_case_sensitivity m, sch)
      end
  | V2 m =>
      match from_inner (v2_scoring_scheme m) with
      | None => None
      | Some sch => Some (AlgoV2, v2_candidate_normalization m, v2_case_sensitivity m, sch)
      end
  end.

End WithUnicode.
