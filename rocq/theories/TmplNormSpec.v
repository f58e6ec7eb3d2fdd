(** * Independent specification: templates and the normalization of percent-encoding.
    Does not mention the code. *)
From Verif Require Import Base Chars Rfc3986 Utf8 PctSpec EncodeSpec TemplateSpec.
Open Scope string_scope. Open Scope N_scope. Open Scope list_scope.

(** The text does not begin with the triplet of a UTF-8 continuation byte, which could complete a character
    begun before.  (No matter for URIs: no character with such bytes is unreserved.) *)
Definition begins_well (S : Spec) (s : str) : Prop :=
  S = UriSpec \/ forall x m r, s = m ++ r -> spelled [x] m -> ~ (128 <= x <= 191).
(** The same template with normalized literals. *)
Inductive part_normal (S : Spec) : part -> part -> Prop :=
| nrm_lit s t : begins_well S s -> pct_normal S s t -> part_normal S (Lit s) (Lit t)
| nrm_expr o l : (w_named (op_row o) = true -> Forall (fun r => pct_normal S (r_name r) (r_name r)) l) ->
    part_normal S (Expr o l) (Expr o l).
