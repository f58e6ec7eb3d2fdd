(** * Independent specification: where an expansion with a dynamic context can stop.
    Uses the template grammar of TemplateSpec.v and the events of ExpandSpec.v. *)
From Verif Require Import Base Rfc3986 MTemplate MExpand TemplateSpec ExpandSpec.
Open Scope string_scope. Open Scope N_scope. Open Scope list_scope.

(** The byte position of the variable after the variables [l1] of an expression with the operator [o]
    after the parts [T1]. *)
Definition place (T1 : list part) (o : rop) (l1 : list rspec) : nat :=
  blen (template_text T1 ++ lit "{" ++ rop_text o ++ flat_map (fun x => rspec_text x ++ lit ",") l1).
(** [halts T e seen]: the expansion of [T] may stop with the error [e] after the context was asked [seen]. *)
Inductive halts (T : list part) : TError -> list event -> Prop :=
(** Writing a literal failed: its position (of the first of several literals in a row). *)
| stop_literal T1 s T2 : T = T1 ++ Lit s :: T2 -> (T1 = [] \/ exists T0 o l, T1 = T0 ++ [Expr o l]) ->
    halts T (mkTE WriteFailed (blen (template_text T1))) (visits T1)
(** Writing the value of a variable failed: the position of the variable. *)
| stop_value T1 o l1 r l2 T2 : T = T1 ++ Expr o (l1 ++ r :: l2) :: T2 ->
    halts T (mkTE WriteFailed (place T1 o l1)) (visits (T1 ++ [Expr o l1]) ++ [EVisit Typecheck (r_name r); EVisit Expand (r_name r)])
(** A variable with a max-length had the wrong type; its value is not asked for. *)
| stop_type T1 o l1 r l2 T2 ds : T = T1 ++ Expr o (l1 ++ r :: l2) :: T2 -> r_mod r = Prefix ds ->
    halts T (mkTE UnexpectedValueType (place T1 o l1)) (visits (T1 ++ [Expr o l1]) ++ [EVisit Typecheck (r_name r)]).
