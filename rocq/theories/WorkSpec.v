(** * Independent specification: counting the segments of a path.  Does not mention the code. *)
From Verif Require Import Base Chars Rfc3986 CompSpec RfcResolve.

(** [path] split at every "/". *)
Inductive pieces : str -> list str -> Prop :=
| pieces_one : forall n, no_slash n -> pieces n [n]
| pieces_more : forall n r l, no_slash n -> pieces r l -> pieces (n ++ lit "/" ++ r) (n :: l).
(** How many of them are not dot segments. *)
Inductive names : list str -> nat -> Prop :=
| names_nil : names [] 0
| names_dot : forall n l m, single_dot n \/ double_dot n -> names l m -> names (n :: l) m
| names_name : forall n l m, ~ single_dot n -> ~ double_dot n -> names l m -> names (n :: l) (1 + m).
Definition dot_free (l : list str) : Prop := Forall (fun n => ~ single_dot n /\ ~ double_dot n) l.
