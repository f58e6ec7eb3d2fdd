(** * Property C51: percent-decoding inverts percent-encoding, and gives the same before and after the
    conversions that only respell.  Specification: EncodeSpec.v, PctSpec.v, Utf8.v, Rfc3986.v.
    Model: MEncode.v, MPct.v.  Decoders take bytes, [utf8s] are those of a string. *)
From Verif Require Import Base Chars Rfc3986 Utf8 PctSpec MFormat MPct MEncode EncodeSpec PDecode PEncNorm.
Open Scope string_scope. Open Scope N_scope. Open Scope list_scope.

(** Whatever the context (the component), decoding an encoded text gives the text back, as bytes and as a
    string.  [d] is any value whose [Display] succeeds, in whatever chunks. *)
Theorem C51_round_trip : forall A S ctx (d : W A) a, snd d = Ret a -> all_scalar (concat (fst d)) = true ->
  exists out, text (PercentEncoded S ctx d) = Ok out /\
    into_bytes (utf8s out) = Ok (utf8s (concat (fst d))) /\ into_string (utf8s out) = Ok (Some (concat (fst d))).
Proof. exact decode_encode. Qed.
Print Assumptions C51_round_trip.
(** So different texts have different encodings. *)
Theorem C51_injective : forall A B S ctx (d : W A) (e : W B) a b out, snd d = Ret a -> snd e = Ret b ->
  all_scalar (concat (fst d)) = true -> all_scalar (concat (fst e)) = true ->
  text (PercentEncoded S ctx d) = Ok out -> text (PercentEncoded S ctx e) = Ok out -> concat (fst d) = concat (fst e).
Proof. exact encode_inj. Qed.
Print Assumptions C51_injective.
(** Normalizing the percent-encoding does not change what is decoded (every component of an IRI satisfies
    [pct_wf], C18_applies). *)
Theorem C51_normalized : forall S s, pct_wf s -> exists t, text (PctCaseNormalized S s) = Ok t /\
  into_bytes (utf8s t) = into_bytes (utf8s s) /\ into_string (utf8s t) = into_string (utf8s s).
Proof. exact decode_normal. Qed.
Print Assumptions C51_normalized.
(** Nor does the mapping to a URI. *)
Theorem C51_to_uri : forall i, IRI_reference IriSpec i -> exists t, text (MappedToUri i) = Ok t /\
  into_bytes (utf8s t) = into_bytes (utf8s i) /\ into_string (utf8s t) = into_string (utf8s i).
Proof. exact decode_uri_reference. Qed.
Print Assumptions C51_to_uri.
(** In a valid reference there is no stray "%", so finding F4 does not concern it. *)
Theorem C51_reference : forall S i, IRI_reference S i -> into_bytes (utf8s i) = Ok (percent_decode (utf8s i)).
Proof. exact decode_reference. Qed.
Print Assumptions C51_reference.
Example C51_ex :
  let raw := lit "a b/%41?" ++ [233; 128512] in
  text (PercentEncoded UriSpec CPathSegment (write raw)) = Ok (lit "a%20b%2F%2541%3F%C3%A9%F0%9F%98%80") /\
  into_string (utf8s (lit "a%20b%2F%2541%3F%C3%A9%F0%9F%98%80")) = Ok (Some raw) /\
  into_string (utf8s (lit "http://h/%c3%A9" ++ [233])) = Ok (Some (lit "http://h/" ++ [233; 233])) /\
  into_string (utf8s (lit "%FF")) = Ok None.
Proof. vm_compute. auto. Qed.

(** ** C57: what the encoders write is already normalized, in every context. *)
Theorem C57_encoded_normal : forall A S ctx (d : W A) a, snd d = Ret a -> all_scalar (concat (fst d)) = true ->
  exists out, text (PercentEncoded S ctx d) = Ok out /\ text (PctCaseNormalized S out) = Ok out.
Proof. exact encoded_normal. Qed.
Print Assumptions C57_encoded_normal.
(** Not so for the encoding of the other spec: a URI encoding is not normal as an IRI. *)
Example C57_ex :
  text (PercentEncoded IriSpec CPath (write (lit "a b/%41" ++ [233; 57344]))) = Ok (lit "a%20b/%2541" ++ [233] ++ lit "%EE%80%80") /\
  text (PctCaseNormalized IriSpec (lit "a%20b/%2541" ++ [233] ++ lit "%EE%80%80")) = Ok (lit "a%20b/%2541" ++ [233] ++ lit "%EE%80%80") /\
  text (PercentEncoded UriSpec CPath (write [233])) = Ok (lit "%C3%A9") /\ text (PctCaseNormalized IriSpec (lit "%C3%A9")) = Ok [233].
Proof. vm_compute. auto. Qed.
