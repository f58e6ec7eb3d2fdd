(** * UTF-8 (The Unicode Standard, table 3-6; RFC 3629).  Specification, independent of the code. *)
From Verif Require Import Base.

(** UTF-8 encoding of a scalar value ([char::encode_utf8]) and of a string ([str::as_bytes]). *)
Definition utf8 (c : N) : list N :=
  if c <? 128 then [c]
  else if c <? 2048 then [192 + c / 64; 128 + c mod 64]
  else if c <? 65536 then [224 + c / 4096; 128 + (c / 64) mod 64; 128 + c mod 64]
  else [240 + c / 262144; 128 + (c / 4096) mod 64; 128 + (c / 64) mod 64; 128 + c mod 64].
Definition utf8s (s : str) : list N := flat_map utf8 s.
