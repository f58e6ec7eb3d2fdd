(** * Character classes.  Models src/parser/char.rs and src/spec/internal.rs. *)
From Verif Require Import Base.

(** src/spec.rs:14-34 ([UriSpec], [IriSpec]). *)
Inductive Spec := UriSpec | IriSpec.

(** src/parser/char.rs:7-34: bit positions of the masks. *)
Definition BIT_SCHEME_CONTINUE := 0.
Definition BIT_UNRESERVED := 1.
Definition BIT_GEN_DELIMS := 2.
Definition BIT_SUB_DELIMS := 3.
Definition BIT_PCHAR := 4.
Definition BIT_FRAG_QUERY := 5.
Definition BIT_USERINFO_IPVFUTUREADDR := 6.
Definition BIT_PCHAR_SLASH := 7.

(** src/parser/char.rs:38-167: [TABLE], transcribed mechanically (decimal values of the
    binary literals in the source order). *)
Definition TABLE : list N := [
  0; 0; 0; 0; 0; 0; 0; 0;
  0; 0; 0; 0; 0; 0; 0; 0;
  0; 0; 0; 0; 0; 0; 0; 0;
  0; 0; 0; 0; 0; 0; 0; 0;
  0; 248; 0; 4; 248; 0; 248; 248;
  248; 248; 248; 249; 248; 243; 243; 164;
  243; 243; 243; 243; 243; 243; 243; 243;
  243; 243; 244; 248; 0; 248; 0; 36;
  180; 243; 243; 243; 243; 243; 243; 243;
  243; 243; 243; 243; 243; 243; 243; 243;
  243; 243; 243; 243; 243; 243; 243; 243;
  243; 243; 243; 4; 0; 4; 0; 242;
  0; 243; 243; 243; 243; 243; 243; 243;
  243; 243; 243; 243; 243; 243; 243; 243;
  243; 243; 243; 243; 243; 243; 243; 243;
  243; 243; 243; 0; 0; 0; 242; 0
].

(** [TABLE[c as usize] & mask != 0].  The Rust indexing panics for [c >= 128]; every caller in
    the crate tests [is_ascii] first (or passes a string already known to be ASCII), and the
    model does the same, so the default is never observed. *)
Definition tbl (bit : N) (c : N) : bool := N.testbit (nth (N.to_nat c) TABLE 0) bit.

(** src/parser/char.rs:172-174 *)
Definition is_ascii_scheme_continue (c : N) := tbl BIT_SCHEME_CONTINUE c.
(** src/parser/char.rs:179-181 *)
Definition is_ascii_unreserved (c : N) := tbl BIT_UNRESERVED c.
(** src/parser/char.rs:218-220 *)
Definition is_ascii_pchar (c : N) := tbl BIT_PCHAR c.
(** src/parser/char.rs:225-227 *)
Definition is_ascii_frag_query (c : N) := tbl BIT_FRAG_QUERY c.
(** src/parser/char.rs:246-248 *)
Definition is_ascii_userinfo_ipvfutureaddr (c : N) := tbl BIT_USERINFO_IPVFUTUREADDR c.
(** src/parser/char.rs:260-262: mask UNRESERVED | SUB_DELIMS. *)
Definition is_ascii_regname (c : N) := tbl BIT_UNRESERVED c || tbl BIT_SUB_DELIMS c.
(** src/parser/char.rs:274-276 *)
Definition is_ascii_pchar_slash (c : N) := tbl BIT_PCHAR_SLASH c.
(** src/parser/char.rs:321-323: mask UNRESERVED | GEN_DELIMS | SUB_DELIMS. *)
Definition is_ascii_unreserved_or_reserved (c : N) :=
  tbl BIT_UNRESERVED c || tbl BIT_GEN_DELIMS c || tbl BIT_SUB_DELIMS c.

(** src/parser/char.rs:280-301 *)
Definition is_ucschar (c : N) : bool :=
  between 160 55295 c            (* A0..D7FF *)
  || between 63744 64975 c       (* F900..FDCF *)
  || between 65008 65519 c       (* FDF0..FFEF *)
  || between 65536 131069 c      (* 1_0000..1_FFFD *)
  || between 131072 196605 c     (* 2_0000..2_FFFD *)
  || between 196608 262141 c     (* 3_0000..3_FFFD *)
  || between 262144 327677 c     (* 4_0000..4_FFFD *)
  || between 327680 393213 c     (* 5_0000..5_FFFD *)
  || between 393216 458749 c     (* 6_0000..6_FFFD *)
  || between 458752 524285 c     (* 7_0000..7_FFFD *)
  || between 524288 589821 c     (* 8_0000..8_FFFD *)
  || between 589824 655357 c     (* 9_0000..9_FFFD *)
  || between 655360 720893 c     (* A_0000..A_FFFD *)
  || between 720896 786429 c     (* B_0000..B_FFFD *)
  || between 786432 851965 c     (* C_0000..C_FFFD *)
  || between 851968 917501 c     (* D_0000..D_FFFD *)
  || between 921600 983037 c.    (* E_1000..E_FFFD *)

(** src/spec/internal.rs:32-35 (IriSpec), 49-52 (UriSpec). *)
Definition is_nonascii_char_unreserved (S : Spec) (c : N) : bool :=
  match S with IriSpec => is_ucschar c | UriSpec => false end.
(** src/spec/internal.rs:37-44 (IriSpec), 54-57 (UriSpec). *)
Definition is_nonascii_char_private (S : Spec) (c : N) : bool :=
  match S with
  | IriSpec => between 57344 63743 c        (* E000..F8FF *)
               || between 983040 1048573 c  (* F_0000..F_FFFD *)
               || between 1048576 1114109 c (* 10_0000..10_FFFD *)
  | UriSpec => false
  end.

(** src/parser/char.rs:186-192 *)
Definition is_unreserved (S : Spec) (c : N) : bool :=
  if is_ascii c then is_ascii_unreserved c else is_nonascii_char_unreserved S c.
(** src/parser/char.rs:232-234 *)
Definition is_nonascii_query (S : Spec) (c : N) : bool :=
  is_nonascii_char_unreserved S c || is_nonascii_char_private S c.
(** src/parser/char.rs:239-241 *)
Definition is_nonascii_fragment := is_nonascii_char_unreserved.
(** src/parser/char.rs:253-255 *)
Definition is_nonascii_userinfo := is_nonascii_char_unreserved.
(** src/parser/char.rs:267-269 *)
Definition is_nonascii_regname := is_nonascii_char_unreserved.

(** src/parser/char.rs:306-316: [(byte as i8) < -64], i.e. 0x80..=0xBF. *)
Definition is_utf8_byte_continue (b : N) : bool := between 128 191 b.
