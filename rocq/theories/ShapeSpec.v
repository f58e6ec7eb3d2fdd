(** * What may follow an IRI in a template (specification of C54). *)
From Verif Require Import Base Chars Rfc3986 CompSpec RfcResolve TemplateSpec.
Open Scope string_scope. Open Scope N_scope. Open Scope list_scope.

(** A part of a template that only extends the component it stands in: a literal made of characters that
    paths, queries and fragments allow (and "?"), or an expression with an operator other than "+" and "#". *)
Definition inner (S : Spec) (p : part) : Prop :=
  match p with Lit s => fragment S s | Expr o _ => o <> Plus /\ o <> Hash end.
(** A part in which the template itself has no "?". *)
Definition no_question (p : part) : Prop := match p with Lit s => ~ In 63 s | Expr o _ => o <> Ques end.
(** A text up to its first "?", and what follows it. *)
Fixpoint at_question (s : str) : str * option str :=
  match s with
  | [] => ([], None)
  | c :: r => if c =? 63 then ([], Some r) else let '(a, b) := at_question r in (c :: a, b)
  end.
(** The components [C] with the text [t] after them. *)
Definition extend (C : comps) (t : str) : comps :=
  match c_f C, c_q C with
  | Some f, _ => mkC (c_s C) (c_a C) (c_p C) (c_q C) (Some (f ++ t))
  | None, Some q => mkC (c_s C) (c_a C) (c_p C) (Some (q ++ t)) None
  | None, None => let '(p, q) := at_question t in mkC (c_s C) (c_a C) (c_p C ++ p) q None
  end.
(** [t] continues the last component of [C]: it does not run into the authority, and does not begin one. *)
Definition attaches (C : comps) (t : str) : Prop :=
  c_f C = None -> c_q C = None ->
  match c_a C with
  | Some _ => c_p C ++ t = [] \/ starts_with (lit "/") (c_p C ++ t) = true \/ starts_with (lit "?") (c_p C ++ t) = true
  | None => starts_with (lit "//") (c_p C ++ t) = false
  end.
