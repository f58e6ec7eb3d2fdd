(** * Model of the construction and comparison of the string types: src/types/generic/macros.rs,
    src/types/generic/error.rs, src/template/string.rs, src/template/string/owned.rs,
    src/template/error.rs. *)
From Verif Require Import Base Chars Utf8 MValidate MTrusted MFormat MEncode MTemplate MMaybePct.

(** ** Construction *)
(** macros.rs:384-398 and 815-825: [TryFrom<&[u8]>] for the borrowed and the owned types. *)
Definition try_from_bytes (S : Spec) (t : ty) (bytes : list N) : res ErrorKind str :=
  match from_utf8 bytes with
  | None => Err InvalidUtf8
  | Some s => new S t s
  end.
(** types/generic/error.rs:18-44 and template/error.rs:98-125 [CreationError] *)
Record CreationError (E T : Type) := mkCE { ce_source : T; ce_error : E }.
Arguments mkCE {E T}. Arguments ce_source {E T}. Arguments ce_error {E T}.
(** macros.rs:827-840: [TryFrom<String>]. *)
Definition try_from_string (S : Spec) (t : ty) (s : str) : res (CreationError ErrorKind str) str :=
  match validate S t s with Ok _ => Ok s | Err e => Err (mkCE s e) | Panic => Panic end.
(** macros.rs:956-1018 [impl_trivial_conv_between_iri]: [AsRef], [From] to the larger type. *)
Definition upcast (debug : bool) (S : Spec) (to : ty) (s : str) : may str := new_unchecked_justified debug S to s.
(** macros.rs:1020-1043: [TryFrom<&to>], [TryFrom<to>] to the smaller type. *)
Definition try_downcast (S : Spec) (from : ty) (s : str) : res ErrorKind str := new S from s.
Definition try_downcast_owned (S : Spec) (from : ty) (s : str) : res (CreationError ErrorKind str) str :=
  match validate S from s with Ok _ => Ok s | Err e => Err (mkCE s e) | Panic => Panic end.
(** absolute.rs:880-892, normal.rs:1127-1132, relative.rs:740-745: the pairs of types. *)
Definition trivial_conv : list (ty * ty) :=
  [(TAbsolute, TIri); (TAbsolute, TReference); (TRelative, TReference); (TIri, TReference)].

(** template/string.rs:484-497, template/string/owned.rs:206-215 *)
Definition template_try_from_bytes (bytes : list N) : tres str :=
  match utf8_error bytes with
  | Some (valid_up_to, _) => terr TInvalidUtf8 valid_up_to
  | None => match from_utf8 bytes with Some s => template_new s | None => Panic end
  end.
(** template/string/owned.rs:217-231 *)
Definition template_try_from_string (s : str) : res (CreationError TError str) str :=
  match validate_template_str s with Ok _ => Ok s | Err e => Err (mkCE s e) | Panic => Panic end.
(** template/string/owned.rs:111-116 [append]: [push_str], then [debug_assert_eq!]. *)
Definition template_append (debug : bool) (s other : str) : may str :=
  if debug && negb (is_ok (validate_template_str (s ++ other))) then Panic else Ok (s ++ other).

(** ** Comparison *)
(** core: [Ord for [u8]] and [Ord for str], which compares the bytes. *)
Fixpoint bytes_cmp (a b : list N) : comparison :=
  match a, b with
  | [], [] => Eq
  | [], _ :: _ => Lt
  | _ :: _, [] => Gt
  | x :: a, y :: b => match N.compare x y with Eq => bytes_cmp a b | c => c end
  end.
Definition str_cmp (s t : str) : comparison := bytes_cmp (utf8s s) (utf8s t).
(** core: [PartialEq for str] *)
Definition str_eq (s t : str) : bool := seqb (utf8s s) (utf8s t).
(** macros.rs:32-119, 294-315, 690-711, 1045-1086 and template/string.rs:27-52: every [PartialEq] and
    [PartialOrd] between two of the types (owned, borrowed, [Cow], plain strings, either spec) compares
    the strings; [Ord] likewise. *)
Definition ri_eq (s t : str) : bool := str_eq s t.
Definition ri_partial_cmp (s t : str) : option comparison := Some (str_cmp s t).
Definition ri_cmp (s t : str) : comparison := str_cmp s t.
(** macros.rs:317-322, 713-718: [Hash], by core's [Hash for str]: the bytes and then 0xff go to the
    hasher. *)
Definition ri_hash {H} (write_bytes : H -> list N -> H) (state : H) (s : str) : H :=
  write_bytes (write_bytes state (utf8s s)) [255].
