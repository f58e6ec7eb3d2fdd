(** * Independent specification: percent-encoding of raw text (RFC 3986 section 2.1), the IRI to URI
    mapping (RFC 3987 section 3.1) and the percent-decode algorithm of the WHATWG URL standard
    (section 1.3).  Does not mention the code. *)
From Verif Require Import Base Chars Rfc3986 Utf8 CompSpec PctSpec RfcResolve.

(** "%" followed by the two upper-case hexadecimal digits of the byte. *)
Definition hex_digit (d : N) : N := nth (N.to_nat d) (lit "0123456789ABCDEF") 0.
Definition triplet (b : N) : str := [37; hex_digit (b / 16); hex_digit (b mod 16)].
Definition triplets (bs : list N) : str := flat_map triplet bs.

(** Characters of [ok] stay, every other character becomes the triplets of its UTF-8 bytes. *)
Definition encode (ok : N -> bool) (s : str) : str :=
  flat_map (fun c => if ok c then [c] else triplets (utf8 c)) s.

(** RFC 3987 section 3.1 step 2, on a string that has no characters other than ASCII, ucschar and
    iprivate (every valid IRI). *)
Definition to_uri (s : str) : str := encode (fun c => c <? 128) s.
Definition omap (o : option str) : option str := match o with Some x => Some (to_uri x) | None => None end.
Definition to_uri_comps (C : comps) : comps :=
  mkC (omap (c_s C)) (omap (c_a C)) (to_uri (c_p C)) (omap (c_q C)) (omap (c_f C)).

(** The characters that each component rule allows unencoded. *)
Definition regname_char (S : Spec) (c : N) : bool := unreserved S c || sub_delims c.
(** User name or password: userinfo without ":", which separates them. *)
Definition user_char (S : Spec) (c : N) : bool := unreserved S c || sub_delims c.
Definition segment_char (S : Spec) (c : N) : bool := unreserved S c || sub_delims c || (c =? 58) || (c =? 64).
Definition path_char (S : Spec) (c : N) : bool := segment_char S c || (c =? 47).
Definition fragment_char (S : Spec) (c : N) : bool := segment_char S c || (c =? 47) || (c =? 63).
Definition query_char (S : Spec) (c : N) : bool :=
  segment_char S c || iri_only S iprivate c || (c =? 47) || (c =? 63).
Definition character_char (S : Spec) (c : N) : bool :=
  unreserved S c || reserved c || iri_only S iprivate c.

(** *( unreserved / pct-encoded ) *)
Definition unreserved_text (S : Spec) : lang := star (cls (unreserved S) <|> pct_encoded).
(** *( unreserved / reserved / pct-encoded ), in IRIs also private characters *)
Definition any_text (S : Spec) : lang :=
  star (cls (unreserved S) <|> cls reserved <|> cls (iri_only S iprivate) <|> pct_encoded).

(** WHATWG URL section 1.3 "percent-decode": for each byte of the input:
    1. if it is not "%", append it to the output;
    2. otherwise, if the next two bytes are not both ASCII hex digits, append it;
    3. otherwise append the byte whose value the two digits give, and skip them. *)
Fixpoint percent_decode (b : list N) : list N :=
  match b with
  | [] => []
  | x :: r =>
      if x =? 37 then
        match r with
        | u :: l :: r' =>
            if HEXDIG u && HEXDIG l then 16 * hex_value u + hex_value l :: percent_decode r'
            else x :: percent_decode r
        | _ => x :: percent_decode r
        end
      else x :: percent_decode r
  end.
(** There is a triplet somewhere / a "%" that does not begin a triplet. *)
Inductive has_triplet : list N -> Prop :=
| ht_here : forall u l r, HEXDIG u = true -> HEXDIG l = true -> has_triplet (37 :: u :: l :: r)
| ht_later : forall x r, has_triplet r -> has_triplet (x :: r).
Inductive has_stray : list N -> Prop :=
| hs_here : forall r, (forall u l r', r = u :: l :: r' -> HEXDIG u && HEXDIG l = false) -> has_stray (37 :: r)
| hs_raw : forall x r, x <> 37 -> has_stray r -> has_stray (x :: r)
| hs_trip : forall u l r, HEXDIG u = true -> HEXDIG l = true -> has_stray r -> has_stray (37 :: u :: l :: r).
