(** * Model of the error messages and of [validate::port]. *)
From Verif Require Import Base Chars MValidate.

Local Open Scope string_scope.
(** src/validate.rs:79-94 [ErrorKind::description] *)
Definition description (k : ErrorKind) : string :=
  match k with
  | InvalidScheme => "invalid scheme"
  | InvalidUserInfo => "invalid userinfo"
  | InvalidHost => "invalid host"
  | InvalidRegName => "invalid reg-name"
  | InvalidPort => "invalid port"
  | InvalidPath => "invalid path"
  | InvalidQuery => "invalid query"
  | InvalidFragment => "invalid fragment"
  | UnexpectedFragment => "unexpected fragment"
  | UnexpectedAbsolute => "expected a relative IRI but got an absolute IRI"
  | UnexpectedRelative => "expected an absolute IRI but got a relative IRI"
  | InvalidUtf8 => "invalid utf-8 bytes"
  end.
(** src/validate.rs:33-38 [Display for Error]; [CreationError] shows the same text
    (types/generic/error.rs:63-67). *)
Definition error_display (k : ErrorKind) : str := (lit "invalid IRI: " ++ lit (description k))%list.

(** src/validate.rs:482-488 [port].  [bytes().all(is_ascii_digit)]: no byte of a non-ASCII character
    is an ASCII digit, so it is a test on the characters. *)
Definition validate_port (s : str) : vres := check (forallb is_digit s) InvalidPort.
