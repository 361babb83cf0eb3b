(** Specification vocabulary for C85: which terms can be written in a query, and how. Nothing here is a model of code. *)
From Verif Require Import Prelude Chars Spec.

(** The terms which some word denotes. A [!], ['], [^] or [$] in the text would be read as a sigil where the
    kind of the term is not written with one of its own in this place. *)
Definition writable (t : term) : Prop :=
  t_text t <> []
  /\ match t_neg t, t_kind t with
     | false, KFuzzy =>
         ~ In (hd 0%N (t_text t)) [33; 39; 94]%N /\ (last (t_text t) 0%N <> 36%N \/ t_text t = [36%N])
         /\ t_text t <> [124%N]
     | false, KSuffix => ~ In (hd 0%N (t_text t)) [33; 39; 94]%N
     | true, KExact => ~ In (hd 0%N (t_text t)) [39; 94]%N /\ (last (t_text t) 0%N <> 36%N \/ t_text t = [36%N])
     | true, KSuffix => ~ In (hd 0%N (t_text t)) [39; 94]%N
     | _, KPrefix => last (t_text t) 0%N <> 36%N
     | false, KExact | true, KFuzzy | _, KEqual => True
     end.

(** A term whose text ends in a backslash which would escape the space after it: kinds which can end in a [$] are safe. *)
Definition ends_open (t : term) : Prop :=
  last (t_text t) 0%N = 92%N
  /\ match t_neg t, t_kind t with
     | false, KFuzzy | true, KExact | _, KPrefix => True
     | _, _ => False
     end.

(** A word for a term *)
Definition write_term (t : term) : str :=
  (if t_neg t then [33%N] else [])
  ++ match t_neg t, t_kind t with
     | false, KFuzzy | true, KExact => t_text t
     | false, KExact | true, KFuzzy => 39%N :: t_text t ++ [36%N]
     | _, KPrefix => 94%N :: t_text t
     | _, KSuffix => t_text t ++ [36%N]
     | _, KEqual => 94%N :: t_text t ++ [36%N]
     end.

(** The words for the alternatives of a condition, with bars between them *)
Fixpoint write_condition (g : list term) : list str :=
  match g with
  | [] => []
  | [t] => [write_term t]
  | t :: g' => write_term t :: [124%N] :: write_condition g'
  end.

Definition write_query (q : cnf) : str := print_words (flat_map write_condition q).
