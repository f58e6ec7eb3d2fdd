(** * Independent specification: names of files below a directory.  Does not mention the code. *)
From Verif Require Import Base Chars Rfc3986 Utf8 TemplateSpec.
Open Scope string_scope. Open Scope N_scope. Open Scope list_scope.

(** A text that can name an entry of a directory; it may well contain "/", "%", "?", ":" and the like. *)
Definition a_name (v : str) : Prop := all_scalar v = true /\ v <> lit "." /\ v <> lit "..".
(** The template "./{x1}/{x2}/.../{xn}" is [template_text (Lit (lit ".") :: path_template [x1; ...; xn])]. *)
Definition var (x : str) : part := Expr Simple [mkR x NoMod].
Fixpoint path_template (xs : list str) : list part :=
  match xs with [] => [] | x :: r => Lit (lit "/") :: var x :: path_template r end.
Example path_template_ex : template_text (Lit (lit ".") :: path_template [lit "a"; lit "bc"]) = lit "./{a}/{bc}".
Proof. reflexivity. Qed.
