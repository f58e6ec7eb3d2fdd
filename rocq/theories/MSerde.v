(** * Model of the serde implementations: src/types/generic/macros.rs, src/template/string.rs,
    src/template/string/owned.rs; and of the texts of template errors, src/template/error.rs. *)
From Verif Require Import Base Chars MValidate MTrusted MFormat MError MTemplate MTypes MBuild.

(** ** Texts of template errors *)
Local Open Scope string_scope.
(** template/error.rs:30-45 [ErrorKind::as_str] *)
Definition template_error_str (k : TErrorKind) : string :=
  match k with
  | WriteFailed => "failed to write to the backend writer"
  | ExpressionNotClosed => "expression not closed"
  | InvalidCharacter => "invalid character"
  | InvalidExpression => "invalid expression"
  | InvalidPercentEncoding => "invalid percent-encoded triplets"
  | TInvalidUtf8 => "invalid utf-8 byte sequence"
  | UnexpectedValueType => "unexpected value type for the variable"
  | UnsupportedOperator => "unsupported operator"
  end.
Local Close Scope string_scope.
(** core: [Display for usize] (there is no bound on the length of a [str] here). *)
Definition usize_dec (n : nat) : str := to_digits (S (N.size_nat (N.of_nat n))) 10 (N.of_nat n) [].
(** template/error.rs:80-91 [Display for Error]; [CreationError] shows the same text (146-151). *)
Definition template_error_display (e : TError) : str :=
  lit "invalid URI template: " ++ lit (template_error_str (te_kind e)) ++ lit " (at " ++
  usize_dec (te_location e) ++ lit "-th byte)".

(** ** serde (not part of the repository) *)
(** What a deserializer hands to a visitor.  [DOther] is every call whose default is an error: booleans,
    numbers, bytes, none, some, unit, newtypes, sequences, maps and enums. *)
Inductive data := DBorrowedStr (s : str) | DStr (s : str) | DString (s : str) | DChar (c : chr) | DOther.
(** serde: [Error::custom], [Error::invalid_type], and errors of the deserializer itself. *)
Inductive serde_error := Custom (message : str) | InvalidType | FormatError.
Inductive hint := HintStr | HintString.
(** A deserializer calls the visitor once, or fails; it may consider the hint. *)
Definition deserializer := hint -> option data.
(** serde: [Visitor].  [None]: not implemented by the visitor, so the default is used. *)
Record visitor (V : Type) := mkVisitor {
  visit_str : option (str -> res serde_error V);
  visit_borrowed_str : option (str -> res serde_error V);
  visit_string : option (str -> res serde_error V) }.
Arguments mkVisitor {V}. Arguments visit_str {V}. Arguments visit_borrowed_str {V}. Arguments visit_string {V}.
Definition call_str {V} (v : visitor V) (s : str) : res serde_error V :=
  match visit_str v with Some f => f s | None => Err InvalidType end.
(** serde: [visit_borrowed_str], [visit_string] and [visit_char] fall back to [visit_str]. *)
Definition visit {V} (v : visitor V) (d : data) : res serde_error V :=
  match d with
  | DStr s => call_str v s
  | DBorrowedStr s => match visit_borrowed_str v with Some f => f s | None => call_str v s end
  | DString s => match visit_string v with Some f => f s | None => call_str v s end
  | DChar c => call_str v [c]
  | DOther => Err InvalidType
  end.
Definition deserialize_with {V} (d : deserializer) (h : hint) (v : visitor V) : res serde_error V :=
  match d h with Some x => visit v x | None => Err FormatError end.

(** [Result::map_err(E::custom)] *)
Definition map_custom {E A} (show : E -> str) (x : res E A) : res serde_error A :=
  match x with Ok a => Ok a | Err e => Err (Custom (show e)) | Panic => Panic end.

(** ** The implementations *)
(** macros.rs:178-187, 543-553, template/string.rs:83-90, template/string/owned.rs:33-38: derived
    [Serialize] with [serde(transparent)]; the only field that is not skipped is the string. *)
Definition serialize {R} (serialize_str : str -> R) (self : str) : R := serialize_str self.
(** macros.rs:425-444 *)
Definition ri_str_visitor (S : Spec) (t : ty) : visitor str :=
  mkVisitor None (Some (fun v => map_custom error_display (new S t v))) None.
(** macros.rs:446-455 [Deserialize for &RiStr] *)
Definition deserialize_ri_str (S : Spec) (t : ty) (d : deserializer) : res serde_error str :=
  deserialize_with d HintString (ri_str_visitor S t).
(** macros.rs:896-922; [TryFrom<&str>] for the owned types: macros.rs:805-813. *)
Definition ri_string_visitor (S : Spec) (t : ty) : visitor str :=
  mkVisitor (Some (fun v => map_custom error_display (new S t v))) None
    (Some (fun v => map_custom (fun e => error_display (ce_error e)) (try_from_string S t v))).
(** macros.rs:924-932 [Deserialize for RiString] *)
Definition deserialize_ri_string (S : Spec) (t : ty) (d : deserializer) : res serde_error str :=
  deserialize_with d HintStr (ri_string_visitor S t).
(** template/string.rs:522-553 *)
Definition deserialize_template_str (d : deserializer) : res serde_error str :=
  deserialize_with d HintString (mkVisitor None (Some (fun v => map_custom template_error_display (template_new v))) None).
(** template/string/owned.rs:281-318 *)
Definition deserialize_template_string (d : deserializer) : res serde_error str :=
  deserialize_with d HintStr (mkVisitor (Some (fun v => map_custom template_error_display (template_new v))) None
    (Some (fun v => map_custom (fun e => template_error_display (ce_error e)) (template_try_from_string v)))).
