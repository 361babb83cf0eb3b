# Comparing the model with the code

The theorems are about the model in `rocq/theories`. Nothing here is part of a proof. The files are a test of the
modelling itself. They compare the model with a second, independent reading of the source.

- `port.py` is a transcription of `/repo/src` into Python. It was made from the Rust text and keeps the mutable buffers,
  the indices and the panics of the original. It reads the tables of `normalize.rs` from `/repo`.
- `gen.py SEED N` makes `N` random steps: new metrics and parsers, setters, queries and searches with and without ranges.
  It writes the steps to `inSEED.txt` and what `port.py` returns to `expSEED.txt`.
- `driver.ml.txt` reads such steps, and makes them with the OCaml program extracted from the model. It is an OCaml source
  file. It isn't called `.ml` since nothing in the build uses it.

The extraction is done outside of the build, by compiling this file with the flags of `_CoqProject`:

```
From Coq Require Import Extraction ExtrOcamlBasic ExtrOcamlNatInt ExtrOcamlZInt.
From Verif Require Import Prelude Chars Normalize Utils Candidate MatchedRanges Query Parser Scoring Slab Fzf FzfV1 FzfV2 Api.
Extraction Blacklist List String Nat Char Int Seq Bool.
Extract Constant I64_MIN => "(-1000000000000000)".
Separate Extraction parse parse_not_extended metric_new metric_distance metric_distance_and_ranges
  set_candidate_normalization set_case_sensitivity set_scoring_scheme parser_new.
```

Then `cp driver.ml.txt driver.ml`, remove the `.mli` files, compile all with `ocamlopt` in the order of their
dependencies, and compare:

```
python3 gen.py 1 20000 && ./driver < in1.txt | diff - exp1.txt
```

On 260,000 steps, from several seeds, there was no difference, panics included. The predicates on non-ASCII characters are the
same few lines in both programs. In the model they are a parameter.
