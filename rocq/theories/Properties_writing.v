(** Property C85: which queries can be written. See Properties_results.v for the conventions. *)
From Coq Require Import String.
From Verif Require Import Prelude Chars Query Parser Scoring Api History Spec Writing.
From Verif Require Import Claims22 ExampleKit.
Local Open Scope nat_scope.

(** ** C85. Which queries can be written *)

(** A list of words is the list of words of some string unless a word which is not the last ends in a backslash. *)
Theorem C85_words : forall ws, (exists s, words_of s = ws) <->
  Forall (fun w => w <> []) ws /\ Forall (fun w => last w 0%N <> 92%N) (removelast ws).
Proof. exact c85_words. Qed.
Print Assumptions C85_words.

(** Conditions are written next to each other, alternatives with bars between them, and each term with its sigils
    ([write_query], Writing.v). The string is parsed to just this query if its terms can be written, and if no text but the
    last ends in a backslash which would escape the next space. *)
Theorem C85_write : forall (UC : unicode) ps q, Forall (fun g => g <> []) q -> Forall writable (concat q) ->
  Forall (fun t => ~ ends_open t) (removelast (concat q)) ->
  exists x ps', parse ps (write_query q) = Ok (x, ps') /\ read_query x = q.
Proof. exact (@c85_write). Qed.
Print Assumptions C85_write.

(** And every string is parsed to such a query, so that the others cannot be written at all. *)
Theorem C85_only : forall (UC : unicode) ps s q ps', parse ps s = Ok (q, ps') ->
  Forall (fun g => g <> []) (read_query q) /\ Forall writable (concat (read_query q))
  /\ Forall (fun t => ~ ends_open t) (removelast (concat (read_query q))).
Proof. exact (@c85_only). Qed.
Print Assumptions C85_only.

Example C85_example (UC := latin) :
  let q := [[Term false KExact (txt "a$"); Term true KExact (txt "!b c")]; [Term false KEqual (txt "'\")];
            [Term true KFuzzy (txt "^d"); Term false KSuffix (txt "x y"); Term false KFuzzy (txt "\")]] in
  Forall (fun g => g <> []) q /\ Forall writable (concat q) /\ Forall (fun t => ~ ends_open t) (removelast (concat q))
  /\ write_query q = txt "'a$$ | !!b\ c ^'\$ !'^d$ | x\ y$ | \" /\ read_query (the_query (write_query q)) = q
  /\ ~ writable (Term false KFuzzy (txt "'a")) /\ ~ writable (Term true KPrefix (txt "a$"))
  /\ ends_open (Term false KFuzzy (txt "\")).
Proof.
  cbv zeta. split; [repeat constructor; discriminate|].
  split.
  { repeat (apply Forall_cons || apply Forall_nil); (split; [discriminate|]); vm_compute; try exact I; intuition discriminate. }
  split; [repeat (apply Forall_cons || apply Forall_nil); vm_compute; intuition discriminate|].
  split; [vm_compute; reflexivity|]. split; [vm_compute; reflexivity|].
  split; [intros [_ [H _]]; apply H; vm_compute; auto|]. split; [intros [_ H]; apply H; reflexivity|].
  split; [reflexivity|exact I].
Qed.
