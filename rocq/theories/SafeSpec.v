(** * What the text of an expansion may contain (specification of C42). *)
From Verif Require Import Base Chars Rfc3986 Utf8 EncodeSpec MFormat MExpand TemplateSpec.
Open Scope string_scope. Open Scope N_scope. Open Scope list_scope.

(** Text made of characters of a class and of well-formed triplets. *)
Definition toks (ok : N -> bool) : lang := star (cls ok <|> pct_encoded).
(** The characters that an expression with the operator [o] can produce: the unreserved ones (for "+" and
    "#" all those of URIs or IRIs), and those with which the operator itself separates values. *)
Definition may_contain (S : Spec) (o : rop) (c : N) : bool :=
  (if w_reserved (op_row o) then character_char S c else unreserved S c)
  || existsb (N.eqb c) (w_first (op_row o) ++ w_sep (op_row o) ++ lit ",=").
(** A value that writes Unicode text, in whatever chunks, even if it then fails or panics. *)
Definition scal (d : W unit) : Prop := all_scalar (concat (fst d)) = true.
Definition scalar_val (v : Value) : Prop :=
  match v with
  | VUndefined => True
  | VString d => scal d
  | VList l => Forall scal l
  | VAssoc l => Forall (fun e => scal (fst e) /\ scal (snd e)) l
  end.
