(** * Specification for C75: the IP address that a host denotes (RFC 3986 section 3.2.2, RFC 4291 section
    2.2).  [V4]/[V6] (MBuild.v) are [std::net::IpAddr]: four octets, eight 16-bit words. *)
From Verif Require Import Base Chars Rfc3986 PctSpec MTrusted MBuild.

Definition dec_number (s : str) : N := fold_left (fun v c => 10 * v + (c - 48)) s 0.
Definition hex_number (s : str) : N := fold_left (fun v c => 16 * v + hex_value c) s 0.

(** "d.d.d.d" *)
Inductive v4_denotes : str -> N * N * N * N -> Prop :=
| v4_quad : forall a b c d, dec_octet a -> dec_octet b -> dec_octet c -> dec_octet d ->
    v4_denotes (a ++ lit "." ++ b ++ lit "." ++ c ++ lit "." ++ d) (dec_number a, dec_number b, dec_number c, dec_number d).
(** "x:x:...:x", words of one to four hexadecimal digits ... *)
Inductive words : str -> list N -> Prop :=
| words_one : forall s, h16 s -> words s [hex_number s]
| words_more : forall s t l, h16 s -> words t l -> words (s ++ lit ":" ++ t) (hex_number s :: l).
(** ... of which the last two may be written as an IPv4 address. *)
Inductive low_words : str -> list N -> Prop :=
| low_one : forall s, h16 s -> low_words s [hex_number s]
| low_v4 : forall s a b c d, v4_denotes s (a, b, c, d) -> low_words s [256 * a + b; 256 * c + d]
| low_more : forall s t l, h16 s -> low_words t l -> low_words (s ++ lit ":" ++ t) (hex_number s :: l).
(** Eight words; "::" stands for one or more words that are zero. *)
Inductive v6_denotes : str -> list N -> Prop :=
| v6_full : forall s l, low_words s l -> length l = 8%nat -> v6_denotes s l
| v6_short : forall s t l r k, (s = [] /\ l = [] \/ words s l) -> (t = [] /\ r = [] \/ low_words t r) ->
    (1 <= k)%nat -> (length l + k + length r = 8)%nat -> v6_denotes (s ++ lit "::" ++ t) (l ++ repeat 0 k ++ r).
(** A host. *)
Inductive host_denotes : str -> IpAddr -> Prop :=
| host_v4 : forall s a b c d, v4_denotes s (a, b, c, d) -> host_denotes s (V4 a b c d)
| host_v6 : forall s l, v6_denotes s l -> host_denotes (lit "[" ++ s ++ lit "]") (V6 l).
(** The values have their Rust types. *)
Definition ip_address (a : IpAddr) : Prop :=
  match a with
  | V4 x y z w => x < 256 /\ y < 256 /\ z < 256 /\ w < 256
  | V6 l => length l = 8%nat /\ Forall (fun n => n < 65536) l
  end.

(** The host that the API reports: [i.authority_components().unwrap().host()]. *)
Definition reports (i h : str) : Prop := exists A, authority_components i = Some A /\ ac_host A = Ok h.
