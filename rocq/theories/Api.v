(** The public API as a whole: one value for a parser with either metric, the calls a user can
    make, and what each call returns. Nothing here adds behaviour; the functions
    only select the models of the methods. *)
From Verif Require Import Prelude Chars Utils Candidate MatchedRanges Query Parser Scoring Slab Fzf FzfV1 FzfV2.

(** FzfV1 or FzfV2; the two implementors of Metric, /repo/src/metric.rs:9-130 *)
Inductive metric := V1 (m : v1) | V2 (m : v2).

(** Which of the two metrics. FzfV1 (fzf_v1.rs:58) or FzfV2 (fzf_v2.rs:65). *)
Inductive algo := AlgoV1 | AlgoV2.

(** FzfV1::new / FzfV2::new, fzf_v1.rs:95, fzf_v2.rs:105 *)
Definition metric_new (a : algo) : metric :=
  match a with AlgoV1 => V1 v1_new | AlgoV2 => V2 v2_new end.

(** set_candidate_normalization of both metrics, fzf_v1.rs:130, fzf_v2.rs:141 *)
Definition set_candidate_normalization (m : metric) (b : bool) : metric :=
  match m with
  | V1 m => V1 (v1_set_candidate_normalization m b)
  | V2 m => V2 (v2_set_candidate_normalization m b)
  end.

(** set_case_sensitivity of both metrics, fzf_v1.rs:158, fzf_v2.rs:169 *)
Definition set_case_sensitivity (m : metric) (cs : case_sensitivity) : metric :=
  match m with
  | V1 m => V1 (v1_set_case_sensitivity m cs)
  | V2 m => V2 (v2_set_case_sensitivity m cs)
  end.

(** set_scoring_scheme of both metrics, fzf_v1.rs:195, fzf_v2.rs:206 *)
Definition set_scoring_scheme {UC : unicode} (m : metric) (s : fzf_scheme) : metric :=
  match m with
  | V1 m => V1 (v1_set_scoring_scheme m s)
  | V2 m => V2 (v2_set_scoring_scheme m s)
  end.

Section WithUnicode.
Context {UC : unicode}.

(** Metric::distance, /repo/src/metric.rs:45-49 *)
Definition metric_distance (m : metric) (q : query) (cand : str)
  : res (option distance * metric) :=
  match m with
  | V1 m => let* '(d, m) := v1_distance m q cand in Ok (d, V1 m)
  | V2 m => let* '(d, m) := v2_distance m q cand in Ok (d, V2 m)
  end.

(** Metric::distance_and_ranges, /repo/src/metric.rs:124-129 *)
Definition metric_distance_and_ranges (m : metric) (q : query) (cand : str)
    (buf : list range) : res (option distance * metric * list range) :=
  match m with
  | V1 m =>
      let* '(d, m, buf) := v1_distance_and_ranges m q cand buf in Ok (d, V1 m, buf)
  | V2 m =>
      let* '(d, m, buf) := v2_distance_and_ranges m q cand buf in Ok (d, V2 m, buf)
  end.

End WithUnicode.
