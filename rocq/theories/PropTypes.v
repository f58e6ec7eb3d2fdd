(** * Properties C38 and C39: construction from bytes and owned strings, conversions between the types,
    comparison and hashing.
    Specification: Rfc3986.v (through C01-C03), Utf8.v, OrderSpec.v.  Model: MTypes.v. *)
From Verif Require Import Base Chars Rfc3986 Utf8 OrderSpec MValidate MTrusted MEncode MTemplate MTypes PTypes3.

(** ** C38 *)
(** [TryFrom<&[u8]>]: exactly the UTF-8 encodings of the strings that [new] accepts, for all types ... *)
Theorem C38_bytes : forall S t b s, try_from_bytes S t b = Ok s <->
  all_scalar s = true /\ b = utf8s s /\ new S t s = Ok s.
Proof. exact bytes_ok. Qed.
Print Assumptions C38_bytes.
(** ... with the error of [new], or [InvalidUtf8] if the bytes are not UTF-8. *)
Theorem C38_bytes_error : forall S t b,
  (forall s, all_scalar s = true -> b = utf8s s -> try_from_bytes S t b = new S t s) /\
  ((forall s, all_scalar s = true -> b <> utf8s s) -> try_from_bytes S t b = Err InvalidUtf8).
Proof. exact bytes_err. Qed.
Print Assumptions C38_bytes_error.
(** [TryFrom<String>]: as [new]; on error the string can be taken back unchanged. *)
Theorem C38_string : forall S t s,
  (new S t s = Ok s -> try_from_string S t s = Ok s) /\
  (forall e, new S t s = Err e -> exists x, try_from_string S t s = Err x /\ ce_source x = s /\ ce_error x = e) /\
  new S t s <> Panic.
Proof. exact string_ok. Qed.
Print Assumptions C38_string.
(** [AsRef] and [From] to a larger type: no change and never a panic. *)
Theorem C38_upcast : forall debug S from to s, In (from, to) trivial_conv -> new S from s = Ok s ->
  upcast debug S to s = Ok s /\ new S to s = Ok s.
Proof. exact upcast_ok. Qed.
Print Assumptions C38_upcast.
(** [TryFrom] to a smaller type: as [new]; on error the value can be taken back unchanged. *)
Theorem C38_downcast : forall S from s,
  (new S from s = Ok s -> try_downcast S from s = Ok s /\ try_downcast_owned S from s = Ok s) /\
  (forall e, new S from s = Err e -> try_downcast S from s = Err e /\
     exists x, try_downcast_owned S from s = Err x /\ ce_source x = s /\ ce_error x = e).
Proof. exact downcast_ok. Qed.
Print Assumptions C38_downcast.
(** Templates from bytes: as [new]; if the bytes are not UTF-8, the error tells where the first thing that
    is not a character begins. *)
Theorem C38_template_bytes : forall b,
  (forall s, all_scalar s = true -> b = utf8s s -> template_try_from_bytes b = template_new s) /\
  ((forall s, all_scalar s = true -> b <> utf8s s) -> exists s r, all_scalar s = true /\ b = utf8s s ++ r /\
     (forall c t, is_scalar c = true -> r <> utf8 c ++ t) /\
     template_try_from_bytes b = terr TInvalidUtf8 (length (utf8s s))).
Proof. exact template_bytes. Qed.
Print Assumptions C38_template_bytes.
Theorem C38_template_string : forall s,
  (template_new s = Ok s -> template_try_from_string s = Ok s) /\
  (forall e, template_new s = Err e -> exists x, template_try_from_string s = Err x /\ ce_source x = s /\ ce_error x = e) /\
  (template_new s = Panic -> template_try_from_string s = Panic).
Proof. exact template_string. Qed.
Print Assumptions C38_template_string.
Example C38_example :
  try_from_bytes IriSpec TIri (lit "a:" ++ [195; 169]) = Ok (lit "a:" ++ [233]) /\
  try_from_bytes UriSpec TIri (lit "a:" ++ [195; 169]) = Err InvalidPath /\
  try_from_bytes IriSpec TIri (lit "a:" ++ [195]) = Err InvalidUtf8 /\
  try_from_string UriSpec TAbsolute (lit "a:#f") = Err (mkCE (lit "a:#f") UnexpectedFragment) /\
  template_try_from_bytes (lit "{x}" ++ [195; 65]) = terr TInvalidUtf8 3 /\
  template_try_from_bytes (lit "{x}") = Ok (lit "{x}").
Proof. vm_compute. repeat split. Qed.

(** ** C39 *)
(** Strings of scalar values (as all Rust strings are) are ordered by their characters; the order is
    total and agrees with equality and [PartialOrd]. *)
Theorem C39_order : forall s t, all_scalar s = true -> all_scalar t = true ->
  (ri_cmp s t = Lt <-> precedes s t) /\ (ri_cmp s t = Eq <-> s = t) /\ (ri_cmp s t = Gt <-> precedes t s) /\
  ri_partial_cmp s t = Some (ri_cmp s t) /\ (ri_eq s t = true <-> s = t).
Proof. exact order_ok. Qed.
Print Assumptions C39_order.
(** Equal values, and only they, have the same hash with every hasher. *)
Theorem C39_hash : forall s t, all_scalar s = true -> all_scalar t = true ->
  (ri_eq s t = true -> forall (H : Type) (w : H -> list N -> H) st, ri_hash w st s = ri_hash w st t) /\
  ((forall (H : Type) (w : H -> list N -> H) st, ri_hash w st s = ri_hash w st t) -> ri_eq s t = true).
Proof. exact hash_ok. Qed.
Print Assumptions C39_hash.
Example C39_example : ri_cmp (lit "a:" ++ [65533]) (lit "a:" ++ [65536]) = Lt /\ ri_cmp (lit "a:b") (lit "a:") = Gt /\ ri_cmp (lit "a:b") (lit "a:b") = Eq.
Proof. vm_compute. repeat split. Qed.
