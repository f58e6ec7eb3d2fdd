(** * Properties C19, C20, C21: percent-encoding, percent-decoding, IRI to URI conversion.
    Specification: EncodeSpec.v, PctSpec.v, Utf8.v, Rfc3986.v.  Model: MEncode.v. *)
From Verif Require Import Base Chars Rfc3986 Utf8 CompSpec PctSpec RfcResolve NormSpec EncodeSpec
  MValidate MTrusted MFormat MWriters MPct MEncode PEncode PEncode2 PInst.

(** ** C19.  [d] is the raw value: any [Display] that returns [Ok], in any chunking; [raw] is its text
    (Rust strings consist of scalar values).  The output keeps exactly the characters the component
    allows, is a string of that component, and percent-decodes to the UTF-8 bytes of [raw]. *)
Theorem C19_reg_name : forall A S (d : W A) a, snd d = Ret a -> all_scalar (concat (fst d)) = true ->
  let raw := concat (fst d) in let out := encode (regname_char S) raw in
  text (PercentEncoded S CRegName d) = Ok out /\ reg_name S out /\ denotes out (utf8s raw).
Proof. exact pe_reg_name. Qed.
Print Assumptions C19_reg_name.
(** A user name or password contains no ":". *)
Theorem C19_user_or_password : forall A S (d : W A) a, snd d = Ret a -> all_scalar (concat (fst d)) = true ->
  let raw := concat (fst d) in let out := encode (user_char S) raw in
  text (PercentEncoded S CUserOrPassword d) = Ok out /\ userinfo S out /\ ~ In 58 out /\ denotes out (utf8s raw).
Proof. exact pe_user. Qed.
Print Assumptions C19_user_or_password.
Theorem C19_path_segment : forall A S (d : W A) a, snd d = Ret a -> all_scalar (concat (fst d)) = true ->
  let raw := concat (fst d) in let out := encode (segment_char S) raw in
  text (PercentEncoded S CPathSegment d) = Ok out /\ segment S out /\ denotes out (utf8s raw).
Proof. exact pe_segment. Qed.
Print Assumptions C19_path_segment.
Theorem C19_path : forall A S (d : W A) a, snd d = Ret a -> all_scalar (concat (fst d)) = true ->
  let raw := concat (fst d) in let out := encode (path_char S) raw in
  text (PercentEncoded S CPath d) = Ok out /\ path S out /\ denotes out (utf8s raw).
Proof. exact pe_path. Qed.
Print Assumptions C19_path.
Theorem C19_query : forall A S (d : W A) a, snd d = Ret a -> all_scalar (concat (fst d)) = true ->
  let raw := concat (fst d) in let out := encode (query_char S) raw in
  text (PercentEncoded S CQuery d) = Ok out /\ query S out /\ denotes out (utf8s raw).
Proof. exact pe_query. Qed.
Print Assumptions C19_query.
Theorem C19_fragment : forall A S (d : W A) a, snd d = Ret a -> all_scalar (concat (fst d)) = true ->
  let raw := concat (fst d) in let out := encode (fragment_char S) raw in
  text (PercentEncoded S CFragment d) = Ok out /\ fragment S out /\ denotes out (utf8s raw).
Proof. exact pe_fragment. Qed.
Print Assumptions C19_fragment.
Theorem C19_unreserve : forall A S (d : W A) a, snd d = Ret a -> all_scalar (concat (fst d)) = true ->
  let raw := concat (fst d) in let out := encode (unreserved S) raw in
  text (PercentEncoded S CUnreserve d) = Ok out /\ unreserved_text S out /\ denotes out (utf8s raw).
Proof. exact pe_unreserve. Qed.
Print Assumptions C19_unreserve.
Theorem C19_character : forall A S (d : W A) a, snd d = Ret a -> all_scalar (concat (fst d)) = true ->
  let raw := concat (fst d) in let out := encode (character_char S) raw in
  text (PercentEncoded S CCharacter d) = Ok out /\ any_text S out /\ denotes out (utf8s raw).
Proof. exact pe_character. Qed.
Print Assumptions C19_character.
Definition shown (cs : list str) : W unit := (cs, Ret tt).
Example C19_ex1 : text (PercentEncoded UriSpec CUserOrPassword (shown [lit "a:"; [233]; lit "/%b"])) = Ok (lit "a%3A%C3%A9%2F%25b").
Proof. vm_compute. reflexivity. Qed.
Example C19_ex2 : text (PercentEncoded IriSpec CQuery (shown [lit "a#?/"; [233; 57344]])) = Ok (lit "a%23?/" ++ [233; 57344]).
Proof. vm_compute. reflexivity. Qed.
Example C19_ex3 : text (PercentEncoded IriSpec CPathSegment (shown [lit "a/b@"; [57344]])) = Ok (lit "a%2Fb@%EE%80%80").
Proof. vm_compute. reflexivity. Qed.

(** ** C20.  The WHATWG percent-decode algorithm is [percent_decode]; [b] is any byte string. *)
(** The bytes a fragment stands for. *)
Theorem C20_fragments : forall b, exists fs, bytes_fragments b = Ok fs /\
  flat_map (fun f => match f with Direct x => x | DecodedByte d => [d] | StrayPercent => [37] end) fs = percent_decode b.
Proof. exact bytes_fragments_ok. Qed.
Print Assumptions C20_fragments.
Example C20_ex1 : bytes_fragments (lit "100% h%20%zz%4") = Ok [Direct (lit "100"); StrayPercent; Direct (lit " h"); DecodedByte 32; StrayPercent; Direct (lit "zz"); StrayPercent; Direct (lit "4")].
Proof. vm_compute. reflexivity. Qed.
(** [to_bytes] borrows exactly when nothing is to be decoded. *)
Theorem C20_to_bytes : forall b,
  (~ has_triplet b -> to_bytes b = Ok (Some b) /\ percent_decode b = b) /\ (has_triplet b -> to_bytes b = Ok None).
Proof. exact to_bytes_ok. Qed.
Print Assumptions C20_to_bytes.
Example C20_ex2 : to_bytes (lit "100% h%zz%4") = Ok (Some (lit "100% h%zz%4")) /\ to_bytes (lit "a%%41") = Ok None.
Proof. vm_compute. auto. Qed.
(** [into_bytes] never panics and is right when there are no triplets or no stray "%" ... *)
Theorem C20_into_bytes_partial : forall b, ~ has_triplet b \/ ~ has_stray b -> into_bytes b = Ok (percent_decode b).
Proof. exact into_bytes_ok. Qed.
Print Assumptions C20_into_bytes_partial.
(** ... and wrong in all other cases (finding F4). *)
Theorem C20_into_bytes_exact : forall b, exists out, into_bytes b = Ok out /\
  (out = percent_decode b <-> ~ has_triplet b \/ ~ has_stray b).
Proof. exact into_bytes_exact. Qed.
Print Assumptions C20_into_bytes_exact.
Theorem C20_into_bytes_refuted : exists b out, into_bytes b = Ok out /\ out <> percent_decode b.
Proof. exists (lit "100% hello%20world"), (lit "100% h world"). split; [vm_compute; reflexivity|discriminate]. Qed.
Print Assumptions C20_into_bytes_refuted.
Example C20_ex3 : into_bytes (lit "%20%zz") = Ok (lit " zz") /\ percent_decode (lit "%20%zz") = lit " %zz".
Proof. vm_compute. auto. Qed.
Example C20_ex4 : into_bytes (lit "hello%20world%C3%a9") = Ok (lit "hello world" ++ [195; 169]).
Proof. vm_compute. reflexivity. Qed.
(** [into_string]: the decoded string, or an error when the bytes are not UTF-8. *)
Theorem C20_into_string : forall b out, into_bytes b = Ok out ->
  (forall s, into_string b = Ok (Some s) <-> all_scalar s = true /\ out = utf8s s) /\
  (into_string b = Ok None <-> ~ exists s, all_scalar s = true /\ out = utf8s s).
Proof. exact into_string_ok. Qed.
Print Assumptions C20_into_string.
Example C20_ex5 : into_string (lit "a%C3%a9") = Ok (Some [97; 233]) /\ into_string (lit "a%C3") = Ok None /\ into_string (lit "%ED%A0%80") = Ok None.
Proof. vm_compute. auto. Qed.

(** ** C21.  [t] ranges over the six string types.  The text is the RFC 3987 section 3.1 mapping, it
    is a URI string of the same type, and no [debug_assert] fails. *)
Theorem C21_display : forall s, all_scalar s = true -> text (MappedToUri s) = Ok (to_uri s).
Proof. exact mapped_text. Qed.
Print Assumptions C21_display.
Theorem C21_dedicated : forall debug t s, new IriSpec t s = Ok s ->
  mapped_to_dedicated_string debug t s = Ok (to_uri s) /\ new UriSpec t (to_uri s) = Ok (to_uri s).
Proof. exact mapped_dedicated. Qed.
Print Assumptions C21_dedicated.
(** The components are mapped one by one: the structure does not change ... *)
Theorem C21_components : forall i C, reads IriSpec i C ->
  all_scalar i = true /\ reads UriSpec (to_uri i) (to_uri_comps C).
Proof. exact reads_uri. Qed.
Print Assumptions C21_components.
(** ... and each one still denotes the same bytes. *)
Theorem C21_denotes : forall s b, all_scalar s = true -> denotes s b -> denotes (to_uri s) b.
Proof. exact to_uri_denotes. Qed.
Print Assumptions C21_denotes.
(** ASCII-only strings are unchanged. *)
Theorem C21_ascii : forall s, all_ascii s = true -> to_uri s = s.
Proof. exact to_uri_ascii. Qed.
Print Assumptions C21_ascii.
(** The in-place conversion gives the same string; when the allocation fails the string is kept. *)
Theorem C21_inline : forall debug t s, new IriSpec t s = Ok s ->
  try_encode_to_uri_inline true debug t s = (Ok tt, to_uri s).
Proof. exact inline_typed. Qed.
Print Assumptions C21_inline.
Theorem C21_inline_alloc_failure : forall debug t s, new IriSpec t s = Ok s ->
  (all_ascii s = true -> try_encode_to_uri_inline false debug t s = (Ok tt, s)) /\
  (all_ascii s = false -> try_encode_to_uri_inline false debug t s = (Err AllocFailed, s)).
Proof. exact inline_typed_fail. Qed.
Print Assumptions C21_inline_alloc_failure.
Theorem C21_encode_into : forall debug t s, new IriSpec t s = Ok s ->
  try_encode_into_uri true debug t s = Ok (to_uri s).
Proof. exact encode_into. Qed.
Print Assumptions C21_encode_into.
(** ... and when memory cannot be had: an error, except that an ASCII string needs none. *)
Theorem C21_encode_into_alloc_failure : forall debug t s, new IriSpec t s = Ok s ->
  (all_ascii s = true -> try_encode_into_uri false debug t s = Ok s) /\
  (all_ascii s = false -> try_encode_into_uri false debug t s = Err AllocFailed).
Proof. exact encode_into_fail. Qed.
Print Assumptions C21_encode_into_alloc_failure.
Theorem C21_try_into_uri : forall debug t s, new IriSpec t s = Ok s ->
  (all_ascii s = true -> try_into_uri debug t s = Ok (inl s) /\ new UriSpec t s = Ok s) /\
  (all_ascii s = false -> try_into_uri debug t s = Ok (inr s)).
Proof. exact into_uri_ok. Qed.
Print Assumptions C21_try_into_uri.
Definition C21_sample : str := lit "http://u:" ++ [233] ++ lit "@" ++ [945; 946] ++ lit "/a%20" ++ [8364] ++ lit "?q=" ++ [128512; 57344] ++ lit "#" ++ [233].
Example C21_ex1 : new IriSpec TIri C21_sample = Ok C21_sample /\
  to_uri C21_sample = lit "http://u:%C3%A9@%CE%B1%CE%B2/a%20%E2%82%AC?q=%F0%9F%98%80%EE%80%80#%C3%A9" /\
  try_encode_to_uri_inline true true TIri C21_sample = (Ok tt, lit "http://u:%C3%A9@%CE%B1%CE%B2/a%20%E2%82%AC?q=%F0%9F%98%80%EE%80%80#%C3%A9").
Proof. vm_compute. auto. Qed.

(** The theorems applied to concrete cases. *)
Example C19_user_instance := C19_user_or_password unit IriSpec (shown [lit "a:"; [233]; lit "/%b"]) tt eq_refl ltac:(ev).
Example C20_string_instance := C20_into_string (lit "a%C3%a9") ([97; 195; 169]) ltac:(ev).
Example C21_components_instance := C21_components C21_sample (mkC (Some (lit "http")) (Some (lit "u:" ++ [233] ++ lit "@" ++ [945; 946])) (lit "/a%20" ++ [8364]) (Some (lit "q=" ++ [128512; 57344])) (Some [233])) ltac:(rd).
Example C21_failure_instance := proj2 (C21_encode_into_alloc_failure true TIri C21_sample (proj1 C21_ex1)) ltac:(ev).
Example C21_denotes_instance := C21_denotes ([233] ++ lit "%20") [195; 169; 32] ltac:(ev).
