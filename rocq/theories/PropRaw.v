(** * Property C56: raw data given to the builder through percent-encoding is read back unchanged.
    Specification: RawSpec.v.  Model: MEncode.v, MBuild.v, MValidate.v, MTrusted.v. *)
From Verif Require Import Base Chars Rfc3986 Utf8 CompSpec RfcResolve NormSpec EncodeSpec MValidate MTrusted MFormat MPct MEncode MBuild RawSpec PRaw.
Open Scope string_scope. Open Scope N_scope. Open Scope list_scope.

(** Every raw data can be encoded ... *)
Theorem C56_encodes : forall S R, raw_ok R -> exists E, encoded S R E.
Proof. exact raw_encodes. Qed.
Print Assumptions C56_encodes.
(** ... and the encoded data built into an IRI; the accessors of the IRI return the encoded data (the userinfo
    is to be split at its first ":", the path at each "/"), which decodes to the raw data. *)
Theorem C56_round_trip : forall debug S R E, raw_ok R -> encoded S R E -> exists x i A u p,
  build S TIri (b_steps (calls E)) = Ok x /\ built_to_dedicated_string S debug TIri x = Ok i /\ new S TIri i = Ok i /\
  scheme_str TIri i = Ok (Some (r_scheme R)) /\ authority_components i = Some A /\
  ac_userinfo A = Ok u /\ user_of u (r_user E) (r_password E) /\ ac_host A = Ok (r_host E) /\
  ac_port A = Ok (option_map u16_dec (r_port R)) /\
  path_str TIri i = Ok p /\ segments_of p (r_segments E) /\
  query_str debug TIri i = Ok (r_query E) /\ fragment_str TIri i = Ok (r_fragment E) /\
  opt_rel decodes (r_user E) (r_user R) /\ opt_rel decodes (r_password E) (r_password R) /\ decodes (r_host E) (r_host R) /\
  Forall2 decodes (r_segments E) (r_segments R) /\ opt_rel decodes (r_query E) (r_query R) /\ opt_rel decodes (r_fragment E) (r_fragment R).
Proof. exact raw_built. Qed.
Print Assumptions C56_round_trip.
(** So different raw data give different IRIs. *)
Theorem C56_injective : forall debug S R R' E E' x x' i, raw_ok R -> raw_ok R' -> encoded S R E -> encoded S R' E' ->
  build S TIri (b_steps (calls E)) = Ok x -> built_to_dedicated_string S debug TIri x = Ok i ->
  build S TIri (b_steps (calls E')) = Ok x' -> built_to_dedicated_string S debug TIri x' = Ok i -> R = R'.
Proof. exact raw_inj. Qed.
Print Assumptions C56_injective.
Definition C56_raw : raw :=
  mkRaw (lit "http") (Some (lit "a:b")) (Some (lit "p@:/")) (lit "h st") (Some 8080) [lit "x/y"; []; lit ".."; [233]] (Some (lit "q=#")) (Some (lit "#%41")).
Definition C56_encoded : raw :=
  mkRaw (lit "http") (Some (lit "a%3Ab")) (Some (lit "p%40%3A%2F")) (lit "h%20st") (Some 8080) [lit "x%2Fy"; []; lit ".."; lit "%C3%A9"] (Some (lit "q=%23")) (Some (lit "%23%2541")).
Example C56_applies : raw_ok C56_raw /\ encoded UriSpec C56_raw C56_encoded.
Proof. exact raw_applies. Qed.
Example C56_ex : match build UriSpec TIri (b_steps (calls C56_encoded)) with Ok x => built_to_dedicated_string UriSpec true TIri x | _ => Panic end =
  Ok (lit "http://a%3Ab:p%40%3A%2F@h%20st:8080/x%2Fy//../%C3%A9?q=%23#%23%2541").
Proof. vm_compute. reflexivity. Qed.
