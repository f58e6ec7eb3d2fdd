(** * Independent specification: the ABNF of RFC 3986 (URI) and RFC 3987 (IRI).

    Nothing here mentions the code.  A language is a predicate on strings; the ABNF operators are
    the combinators below, and every rule is transcribed from the RFC.  Rules of RFC 3987 extend
    those of RFC 3986 by [ucschar] (in [iunreserved]) and [iprivate] (in [iquery]); the argument
    [S] selects the RFC: for [UriSpec] no non-ASCII character is allowed. *)
From Verif Require Import Base Chars.

Definition lang := str -> Prop.

(** ABNF combinators. *)
Definition eps : lang := fun s => s = [].
Definition tok (t : string) : lang := fun s => s = lit t.
Definition cls (f : N -> bool) : lang := fun s => exists c, s = [c] /\ f c = true.
Definition cat (A B : lang) : lang := fun s => exists a b, s = a ++ b /\ A a /\ B b.
Definition alt (A B : lang) : lang := fun s => A s \/ B s.
Definition opt (A : lang) : lang := alt eps A.
Inductive star (A : lang) : lang :=
| star_nil : star A []
| star_cons : forall a b, A a -> star A b -> star A (a ++ b).
Definition plus (A : lang) : lang := cat A (star A).
Fixpoint rep (n : nat) (A : lang) : lang :=
  match n with O => eps | S m => cat A (rep m A) end.
(** [lo*hi A] *)
Definition reps (lo hi : nat) (A : lang) : lang :=
  fun s => exists n, (lo <= n <= hi)%nat /\ rep n A s.

Infix "+++" := cat (at level 60, right associativity).
Infix "<|>" := alt (at level 70, right associativity).

(** Character classes (RFC 3986 section 2, RFC 3987 section 2.2, RFC 5234). *)
Definition ALPHA (c : N) : bool := between 65 90 c || between 97 122 c.
Definition DIGIT (c : N) : bool := between 48 57 c.
Definition HEXDIG (c : N) : bool := DIGIT c || between 65 70 c || between 97 102 c.
Definition one_of (t : string) (c : N) : bool := existsb (N.eqb c) (lit t).
Definition gen_delims (c : N) : bool := one_of ":/?#[]@" c.
Definition sub_delims (c : N) : bool := one_of "!$&'()*+,;=" c.
Definition reserved (c : N) : bool := gen_delims c || sub_delims c.

(** ucschar = A0-D7FF / F900-FDCF / FDF0-FFEF / 10000-1FFFD / ... / D0000-DFFFD / E1000-EFFFD *)
Definition ucschar (c : N) : bool :=
  between 160 55295 c || between 63744 64975 c || between 65008 65519 c
  || (between 1 13 (c / 65536) && (c mod 65536 <=? 65533))
  || between 921600 983037 c.
(** iprivate = E000-F8FF / F0000-FFFFD / 100000-10FFFD *)
Definition iprivate (c : N) : bool :=
  between 57344 63743 c || between 983040 1048573 c || between 1048576 1114109 c.

Definition iri_only (S : Spec) (f : N -> bool) (c : N) : bool :=
  match S with IriSpec => f c | UriSpec => false end.

Definition unreserved (S : Spec) (c : N) : bool :=
  ALPHA c || DIGIT c || one_of "-._~" c || iri_only S ucschar c.

Section Rules.
Variable S : Spec.

Definition pct_encoded : lang := tok "%" +++ cls HEXDIG +++ cls HEXDIG.

(** scheme = ALPHA *( ALPHA / DIGIT / "+" / "-" / "." ) *)
Definition scheme : lang :=
  cls ALPHA +++ star (cls (fun c => ALPHA c || DIGIT c || one_of "+-." c)).

(** pchar = unreserved / pct-encoded / sub-delims / ":" / "@" *)
Definition pchar : lang :=
  cls (unreserved S) <|> pct_encoded <|> cls sub_delims <|> tok ":" <|> tok "@".

Definition segment : lang := star pchar.
Definition segment_nz : lang := plus pchar.
(** segment-nz-nc = 1*( unreserved / pct-encoded / sub-delims / "@" ) *)
Definition segment_nz_nc : lang :=
  plus (cls (unreserved S) <|> pct_encoded <|> cls sub_delims <|> tok "@").

Definition path_abempty : lang := star (tok "/" +++ segment).
Definition path_absolute : lang :=
  tok "/" +++ opt (segment_nz +++ star (tok "/" +++ segment)).
Definition path_noscheme : lang := segment_nz_nc +++ star (tok "/" +++ segment).
Definition path_rootless : lang := segment_nz +++ star (tok "/" +++ segment).
Definition path_empty : lang := eps.
Definition path : lang :=
  path_abempty <|> path_absolute <|> path_noscheme <|> path_rootless <|> path_empty.

(** iquery = *( ipchar / iprivate / "/" / "?" ) *)
Definition query : lang :=
  star (pchar <|> cls (iri_only S iprivate) <|> tok "/" <|> tok "?").
(** ifragment = *( ipchar / "/" / "?" ) *)
Definition fragment : lang := star (pchar <|> tok "/" <|> tok "?").

(** userinfo = *( unreserved / pct-encoded / sub-delims / ":" ) *)
Definition userinfo : lang :=
  star (cls (unreserved S) <|> pct_encoded <|> cls sub_delims <|> tok ":").

(** dec-octet *)
Definition dec_octet : lang :=
  cls DIGIT
  <|> (cls (between 49 57) +++ cls DIGIT)
  <|> (tok "1" +++ cls DIGIT +++ cls DIGIT)
  <|> (tok "2" +++ cls (between 48 52) +++ cls DIGIT)
  <|> (tok "25" +++ cls (between 48 53)).
Definition IPv4address : lang :=
  dec_octet +++ tok "." +++ dec_octet +++ tok "." +++ dec_octet +++ tok "." +++ dec_octet.

Definition h16 : lang := reps 1 4 (cls HEXDIG).
Definition ls32 : lang := (h16 +++ tok ":" +++ h16) <|> IPv4address.
Definition h16c : lang := h16 +++ tok ":".
Definition IPv6address : lang :=
      (                                          rep 6 h16c +++ ls32)
  <|> (                            tok "::" +++ rep 5 h16c +++ ls32)
  <|> (opt (              h16) +++ tok "::" +++ rep 4 h16c +++ ls32)
  <|> (opt (reps 0 1 h16c +++ h16) +++ tok "::" +++ rep 3 h16c +++ ls32)
  <|> (opt (reps 0 2 h16c +++ h16) +++ tok "::" +++ rep 2 h16c +++ ls32)
  <|> (opt (reps 0 3 h16c +++ h16) +++ tok "::" +++      h16c +++ ls32)
  <|> (opt (reps 0 4 h16c +++ h16) +++ tok "::"               +++ ls32)
  <|> (opt (reps 0 5 h16c +++ h16) +++ tok "::"               +++ h16)
  <|> (opt (reps 0 6 h16c +++ h16) +++ tok "::").
(** IPvFuture = "v" 1*HEXDIG "." 1*( unreserved / sub-delims / ":" ); ABNF literals are case
    insensitive, and even in RFC 3987 the address part is ASCII only. *)
Definition IPvFuture : lang :=
  (tok "v" <|> tok "V") +++ plus (cls HEXDIG) +++ tok "." +++
  plus (cls (unreserved UriSpec) <|> cls sub_delims <|> tok ":").
Definition IP_literal : lang := tok "[" +++ (IPv6address <|> IPvFuture) +++ tok "]".
(** reg-name = *( unreserved / pct-encoded / sub-delims ) *)
Definition reg_name : lang := star (cls (unreserved S) <|> pct_encoded <|> cls sub_delims).
Definition host : lang := IP_literal <|> IPv4address <|> reg_name.
Definition port : lang := star (cls DIGIT).
Definition authority : lang :=
  opt (userinfo +++ tok "@") +++ host +++ opt (tok ":" +++ port).

Definition hier_part : lang :=
  (tok "//" +++ authority +++ path_abempty) <|> path_absolute <|> path_rootless <|> path_empty.
Definition relative_part : lang :=
  (tok "//" +++ authority +++ path_abempty) <|> path_absolute <|> path_noscheme <|> path_empty.

Definition q_opt : lang := opt (tok "?" +++ query).
Definition f_opt : lang := opt (tok "#" +++ fragment).

Definition IRI : lang := scheme +++ tok ":" +++ hier_part +++ q_opt +++ f_opt.
Definition absolute_IRI : lang := scheme +++ tok ":" +++ hier_part +++ q_opt.
Definition relative_ref : lang := relative_part +++ q_opt +++ f_opt.
Definition IRI_reference : lang := IRI <|> relative_ref.
End Rules.

(** A validator is exact for a language when it accepts every member (returning [out s]) and rejects
    every other string with an error value; in particular it never panics. *)
Definition recognizes {E A} (f : str -> res E A) (out : str -> A) (L : lang) : Prop :=
  forall s, (L s -> f s = Ok (out s)) /\ (~ L s -> exists e, f s = Err e).
