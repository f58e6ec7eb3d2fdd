(** * Independent specification: what a resolution depends on.  Does not mention the code. *)
From Verif Require Import Base Chars Rfc3986 CompSpec RfcResolve ConfineSpec.

(** The bases [B] and [B'] agree in all that matters for the reference [R]. *)
Inductive agree (R B B' : comps) : Prop :=
| ag_scheme : defined (c_s R) = true -> agree R B B'
| ag_authority : defined (c_a R) = true -> c_s B = c_s B' -> agree R B B'
| ag_absolute : forall r, c_p R = lit "/" ++ r -> c_s B = c_s B' -> c_a B = c_a B' -> agree R B B'
| ag_relative : forall d, c_p R <> [] -> c_s B = c_s B' -> c_a B = c_a B' -> directory B d -> directory B' d -> agree R B B'
| ag_query : defined (c_q R) = true -> c_s B = c_s B' -> c_a B = c_a B' -> c_p B = c_p B' -> agree R B B'
| ag_all_but_fragment : c_s B = c_s B' -> c_a B = c_a B' -> c_p B = c_p B' -> c_q B = c_q B' -> agree R B B'.
