(** * Independent specification for C47 (serialization) and for the texts of template errors (C27).
    [data], [deserializer] (MSerde.v) are serde's interface, not code of the repository. *)
From Verif Require Import Base Chars Rfc3986 CompSpec ErrSpec TemplateSpec TmplErrSpec BuildSpec MTrusted MSerde.

(** The text of a piece of data. *)
Inductive carries : data -> str -> Prop :=
| c_borrowed : forall s, carries (DBorrowedStr s) s
| c_str : forall s, carries (DStr s) s
| c_string : forall s, carries (DString s) s
| c_char : forall c, carries (DChar c) [c].

(** The strings of each type.  An absolute IRI may have an empty fragment (finding F1). *)
Definition admits (S : Spec) (t : ty) (s : str) : Prop :=
  match t with
  | TAbsolute => absolute_IRI S s \/ exists s', s = s' ++ lit "#" /\ absolute_IRI S s'
  | TIri => IRI S s | TReference => IRI_reference S s | TRelative => relative_ref S s
  | TQuery => query S s | TFragment => fragment S s
  end.
(** What is wrong with the other strings (as in C40). *)
Definition blamed (S : Spec) (t : ty) (s : str) (m : string) : Prop :=
  match t with
  | TAbsolute => blames_iri S False s m
  | TIri => blames_iri S True s m | TReference => blames_reference S s m | TRelative => blames_relative S s m
  | TQuery => ~ query S s /\ m = "invalid query"%string
  | TFragment => ~ fragment S s /\ m = "invalid fragment"%string
  end.
Definition iri_message (m : string) : str := lit "invalid IRI: " ++ lit m.

(** Texts of template errors. *)
Definition defect_text (k : defect) : string :=
  match k with
  | BadCharacter => "invalid character" | BadTriplet => "invalid percent-encoded triplets"
  | NotClosed => "expression not closed" | BadExpression => "invalid expression"
  | FutureOperator => "unsupported operator"
  end%string.
Definition template_message (k : defect) (n : nat) (m : str) : Prop :=
  exists d, decimal (N.of_nat n) d /\
  m = lit "invalid URI template: " ++ lit (defect_text k) ++ lit " (at " ++ d ++ lit "-th byte)".

(** A format that gives back the strings that were written to it, in one of the forms [allowed]. *)
Definition faithful {R} (allowed : data -> Prop) (write : str -> R) (read : R -> deserializer) : Prop :=
  forall s h, exists d, read (write s) h = Some d /\ carries d s /\ allowed d.
