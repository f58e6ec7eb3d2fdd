(** * Specification: the lexicographic order of strings by their characters. *)
From Verif Require Import Base.
Inductive precedes : str -> str -> Prop :=
(** A proper prefix comes first ... *)
| pre_prefix s c t : precedes s (s ++ c :: t)
(** ... otherwise the first difference decides. *)
| pre_char s c d t u : c < d -> precedes (s ++ c :: t) (s ++ d :: u).
