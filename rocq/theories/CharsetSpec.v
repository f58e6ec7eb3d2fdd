(** * Independent specification: characters that never occur, and joining strings with them.  Does not
    mention the code. *)
From Verif Require Import Base Chars.

(** Controls, space, and the "delims" and "unwise" characters: the characters by which texts delimit or
    quote references (RFC 3986 appendix C), besides brackets. *)
Definition outside_ascii_rules (c : N) : Prop := c <= 32 \/ In c (lit """<>\^`{|}") \/ c = 127.
(** C1 controls, surrogates, noncharacters, specials, tags (U+E0000 to U+E0FFF), and beyond Unicode. *)
Definition outside_unicode_rules (c : N) : Prop :=
  128 <= c <= 159 \/ 55296 <= c <= 57343 \/ 64976 <= c <= 65007 \/ 65520 <= c <= 65535 \/
  (c mod 65536 = 65534 \/ c mod 65536 = 65535) \/ 917504 <= c <= 921599 \/ 1114111 < c.
Definition never (S : Spec) (c : N) : Prop :=
  outside_ascii_rules c \/ match S with UriSpec => 128 <= c | IriSpec => outside_unicode_rules c end.

(** [s] is the nonempty list [l] joined with the character [d]. *)
Inductive joined (d : N) : list str -> str -> Prop :=
| j_one : forall x, joined d [x] x
| j_more : forall x l s, joined d l s -> joined d (x :: l) (x ++ d :: s).
