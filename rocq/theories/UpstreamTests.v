(** The table of /repo/tests/fzf_common.rs:7-540 (run there for both metrics by tests/fzf_v1.rs
    and tests/fzf_v2.rs), and the individual tests of these two files, evaluated on
    the model. These are tests of the model's fidelity, not proofs of properties. *)
From Coq Require Import String.
Local Open Scope string_scope.
From Verif Require Import Prelude Chars Utils Candidate MatchedRanges Query Parser Scoring Slab Fzf FzfV1 FzfV2 Api.

(** Tables for the few characters that occur below; none of them has the properties asked for. *)
Local Open Scope list_scope.
#[local] Instance test_unicode : unicode :=
  {| cfg_windows := false; u_lowercase := fun c => (c =? 1253)%N; u_uppercase := fun _ => false;
     u_numeric := fun _ => false; u_alphabetic := fun _ => false; u_whitespace := fun _ => false |}.

Definition run (a : algo) (cs : case_sensitivity) (norm : bool) (q cand : str)
  : option (option (Z * list range)) :=
  match parse parser_new q with
  | Ok (qu, _) =>
      match metric_distance_and_ranges
              (set_candidate_normalization (set_case_sensitivity (metric_new a) cs) norm)
              qu cand [] with
      | Ok (Some d, _, r) => Some (Some (into_score d, r))
      | Ok (None, _, _) => Some None
      | _ => None
      end
  | _ => None
  end.

Definition upstream : list (case_sensitivity * string * string * option (Z * list range)) := [
  (* upstream_empty *) (Insensitive, "", "foo", Some (0%Z, []));
  (* upstream_fuzzy_1 *) (Insensitive, "oBZ", "fooBarbaz1", Some (49%Z, [(2, 4); (8, 9)]));
  (* upstream_fuzzy_2 *) (Insensitive, "fbb", "foo bar baz", Some (78%Z, [(0, 1); (4, 5); (8, 9)]));
  (* upstream_fuzzy_3 *) (Insensitive, "rdoc", "/AutomatorDocument.icns", Some (79%Z, [(9, 13)]));
  (* upstream_fuzzy_4 *) (Insensitive, "zshc", "/man1/zshcompctl.1", Some (109%Z, [(6, 10)]));
  (* upstream_fuzzy_5 *) (Insensitive, "zshc", "/.oh-my-zsh/cache", Some (102%Z, [(8, 11); (12, 13)]));
  (* upstream_fuzzy_6 *) (Insensitive, "12356", "ab0123 456", Some (88%Z, [(3, 6); (8, 10)]));
  (* upstream_fuzzy_7 *) (Insensitive, "12356", "abc123 456", Some (108%Z, [(3, 6); (8, 10)]));
  (* upstream_fuzzy_8 *) (Insensitive, "fbb", "foo/bar/baz", Some (76%Z, [(0, 1); (4, 5); (8, 9)]));
  (* upstream_fuzzy_9 *) (Insensitive, "fbb", "fooBarBaz", Some (74%Z, [(0, 1); (3, 4); (6, 7)]));
  (* upstream_fuzzy_10 *) (Insensitive, "fbb", "foo barbaz", Some (69%Z, [(0, 1); (4, 5); (7, 8)]));
  (* upstream_fuzzy_11 *) (Insensitive, "foob", "fooBar Baz", Some (114%Z, [(0, 4)]));
  (* upstream_fuzzy_12 *) (Insensitive, "foo-b", "xFoo-Bar Baz", Some (124%Z, [(1, 6)]));
  (* upstream_fuzzy_13 *) (Sensitive, "oBz", "fooBarbaz", Some (49%Z, [(2, 4); (8, 9)]));
  (* upstream_fuzzy_14 *) (Sensitive, "FBB", "Foo/Bar/Baz", Some (76%Z, [(0, 1); (4, 5); (8, 9)]));
  (* upstream_fuzzy_15 *) (Sensitive, "FBB", "FooBarBaz", Some (74%Z, [(0, 1); (3, 4); (6, 7)]));
  (* upstream_fuzzy_16 *) (Sensitive, "FooB", "FooBar Baz", Some (114%Z, [(0, 4)]));
  (* upstream_fuzzy_17 *) (Sensitive, "o-ba", "foo-bar", Some (88%Z, [(2, 6)]));
  (* upstream_fuzzy_18 *) (Sensitive, "oBZ", "fooBarbaz", None);
  (* upstream_fuzzy_19 *) (Sensitive, "fbb", "Foo Bar Baz", None);
  (* upstream_fuzzy_20 *) (Sensitive, "fooBarbazz", "fooBarbaz", None);
  (* upstream_exact_1 *) (Sensitive, "'oBA", "fooBarbaz", None);
  (* upstream_exact_2 *) (Sensitive, "'fooBarbazz", "fooBarbaz", None);
  (* upstream_exact_3 *) (Insensitive, "'oBA", "fooBarbaz", Some (59%Z, [(2, 5)]));
  (* upstream_exact_4 *) (Insensitive, "'rdoc", "/AutomatorDocument.icns", Some (79%Z, [(9, 13)]));
  (* upstream_exact_5 *) (Insensitive, "'zshc", "/man1/zshcompctl.1", Some (109%Z, [(6, 10)]));
  (* upstream_exact_6 *) (Insensitive, "'zsh/c", "/.oh-my-zsh/cache", Some (129%Z, [(8, 13)]));
  (* upstream_exact_7 *) (Insensitive, "'oo", "foobar foo", Some (36%Z, [(1, 3)]));
  (* upstream_prefix_1 *) (Sensitive, "^Foo", "fooBarbaz", None);
  (* upstream_prefix_2 *) (Sensitive, "^baz", "fooBarBaz", None);
  (* upstream_prefix_3 *) (Insensitive, "^Foo", "fooBarbaz", Some (88%Z, [(0, 3)]));
  (* upstream_prefix_4 *) (Insensitive, "^foo", "foOBarBaZ", Some (88%Z, [(0, 3)]));
  (* upstream_prefix_5 *) (Insensitive, "^f-o", "f-oBarbaz", Some (88%Z, [(0, 3)]));
  (* upstream_prefix_6 *) (Insensitive, "^foo", " fooBar", Some (88%Z, [(1, 4)]));
  (* upstream_prefix_7 *) (Insensitive, "\ fo", " fooBar", Some (88%Z, [(0, 3)]));
  (* upstream_prefix_8 *) (Insensitive, "^foo", "     fo", None);
  (* upstream_suffix_1 *) (Sensitive, "Baz$", "fooBarbaz", None);
  (* upstream_suffix_2 *) (Insensitive, "Foo$", "fooBarBaz", None);
  (* upstream_suffix_3 *) (Insensitive, "baz$", "fooBarbaz", Some (56%Z, [(6, 9)]));
  (* upstream_suffix_4 *) (Insensitive, "baz$", "fooBarBaZ", Some (76%Z, [(6, 9)]));
  (* upstream_suffix_5 *) (Insensitive, "baz$", "fooBarbaz ", Some (56%Z, [(6, 9)]));
  (* upstream_suffix_6 *) (Insensitive, "baz\ $", "fooBarbaz ", Some (82%Z, [(6, 10)]))
].

Definition expected : list (option (option (Z * list range))) :=
  map (fun '(_, _, _, e) => Some e) upstream.
Definition actual (a : algo) : list (option (option (Z * list range))) :=
  map (fun '(cs, q, c, _) => run a cs false (str_of q) (str_of c)) upstream.

Example upstream_v1 : actual AlgoV1 = expected.
Proof. vm_compute. reflexivity. Qed.

Example upstream_v2 : actual AlgoV2 = expected.
Proof. vm_compute. reflexivity. Qed.

Definition ranges_of (x : option (option (Z * list range))) : option (list range) :=
  match x with Some (Some (_, r)) => Some r | _ => None end.

(** fzf_v1.rs, fzf_v1_score_1 *)
Example v1_score_1 :
  ranges_of (run AlgoV1 Sensitive false (str_of "ZZ") (1253%N :: str_of "ZZZ")) = Some [(2, 4)].
Proof. vm_compute. reflexivity. Qed.

(** fzf_v1_score_2, fzf_v1_score_3 *)
Example v1_score_2 :
  run AlgoV1 Sensitive false (str_of "^\$ ]]%]]'" ++ [0; 0; 0; 0; 0; 0]%N) [0%N] = Some None.
Proof. vm_compute. reflexivity. Qed.
Example v1_score_3 : run AlgoV1 Sensitive false (str_of "^\$") (str_of " ") = Some None.
Proof. vm_compute. reflexivity. Qed.

(** fzf_v1_score_4 *)
Example v1_score_4 :
  ranges_of (run AlgoV1 Insensitive false (str_of "z" ++ [10%N])
    (str_of "ZZ" ++ repeat 0%N 17 ++ [1630; 10]%N ++ str_of "Z" ++ [1630%N]))
  = Some [(1, 2); (21, 22)].
Proof. vm_compute. reflexivity. Qed.

(** fzf_v1_score_5, fzf_v2_score_4 *)
Example score_5 :
  map (fun a => ranges_of (run a Sensitive true (str_of "e !") (str_of " !I\hh+" ++ [868%N])))
    [AlgoV1; AlgoV2] = [Some [(7, 9)]; Some [(7, 9)]].
Proof. vm_compute. reflexivity. Qed.

(** fzf_v1_score_6, fzf_v2_score_5 *)
Example score_6 :
  ranges_of (run AlgoV1 Insensitive true (str_of "^e") [868%N]) = Some [(0, 2)]
  /\ ranges_of (run AlgoV2 Insensitive true (str_of "E") (868%N :: str_of "E")) = Some [(0, 2)].
Proof. vm_compute. auto. Qed.

(** fzf_v2_score_1, 2, 3, 6 *)
Example v2_score_1 :
  run AlgoV2 Sensitive false (str_of "jelly") (str_of "jellyfish") = Some (Some (140%Z, [(0, 5)])).
Proof. vm_compute. reflexivity. Qed.
Example v2_score_2 : run AlgoV2 Sensitive false (str_of "!$") (str_of "$$2") = Some None.
Proof. vm_compute. reflexivity. Qed.
Example v2_score_3 :
  ranges_of (run AlgoV2 Sensitive false [0; 0]%N ([0%N] ++ str_of "#B" ++ [0; 868; 0; 0]%N))
  = Some [(6, 8)].
Proof. vm_compute. reflexivity. Qed.
Example v2_score_6 :
  run AlgoV2 Insensitive true
    (str_of "!2" ++ [9; 0; 0; 0]%N ++ str_of "WWHHWHWWWWWWWZ !I")
    ([6; 0; 0]%N ++ str_of " N" ++ [868; 14; 869]%N ++ str_of "+") = Some None.
Proof. vm_compute. reflexivity. Qed.
