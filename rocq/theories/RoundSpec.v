(** * Independent specification for the round trip between IRIs and URIs.  Does not mention the code. *)
From Verif Require Import Base Chars Rfc3986.

(** Private use characters (RFC 3987: iprivate) are allowed in queries only, and are not unreserved:
    a percent-encoded one is never decoded. *)
Definition no_private (s : str) : Prop := forall c, In c s -> iprivate c = false.
