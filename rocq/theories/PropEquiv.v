(** * C45: the mapping to URIs commutes with resolution and normalization.  C46: normalization decides equivalence. *)
From Verif Require Import Base Chars Rfc3986 Utf8 CompSpec PctSpec RfcResolve NormSpec EncodeSpec EquivSpec MValidate MTrusted MFormat MPct MPath MNormalize
  PCommute PEquiv PInst.
Open Scope string_scope. Open Scope N_scope. Open Scope list_scope.

(** ** C45: [to_uri] is the mapping of RFC 3987 section 3.1, computed by the code (C21). *)
Theorem C45_resolve : forall base ref, IRI IriSpec base -> IRI_reference IriSpec ref -> exists n out n',
  resolve base ref = Ok n /\ display IriSpec n = Ok out /\
  resolve (to_uri base) (to_uri ref) = Ok n' /\ display UriSpec n' = Ok (to_uri out).
Proof. exact c45_resolve. Qed.
Print Assumptions C45_resolve.
Theorem C45_normalize : forall (keep : bool) i, IRI IriSpec i -> exists n out n',
  (if keep then normalize_preserve i else normalize i) = Ok n /\ display IriSpec n = Ok out /\
  (if keep then normalize_preserve (to_uri i) else normalize (to_uri i)) = Ok n' /\ display UriSpec n' = Ok (to_uri out).
Proof. exact c45_normalize. Qed.
Print Assumptions C45_normalize.
Theorem C45_resolve_normalize : forall base ref, IRI IriSpec base -> IRI_reference IriSpec ref -> exists n out n',
  resolve base ref = Ok n /\ display IriSpec (set_mode n MDefault) = Ok out /\
  resolve (to_uri base) (to_uri ref) = Ok n' /\ display UriSpec (set_mode n' MDefault) = Ok (to_uri out).
Proof. exact c45_both. Qed.
Print Assumptions C45_resolve_normalize.
Definition C45_base : str := lit "HTTP://EX%41MPLE/" ++ [233] ++ lit "/%ce%b1/x?" ++ [57344].
Definition C45_ref : str := lit "../" ++ [945] ++ lit "%C3%a9/%2e%2e/%ff#" ++ [8364].
Example C45_ex :
  new IriSpec TIri C45_base = Ok C45_base /\ new IriSpec TReference C45_ref = Ok C45_ref /\
  (do n <- resolve C45_base C45_ref ; display IriSpec (set_mode n MDefault)) = Ok (lit "http://example/" ++ [233] ++ lit "/%FF#" ++ [8364]) /\
  (do n <- resolve (to_uri C45_base) (to_uri C45_ref) ; display UriSpec (set_mode n MDefault)) = Ok (lit "http://example/%C3%A9/%FF#%E2%82%AC") /\
  to_uri (lit "http://example/" ++ [233] ++ lit "/%FF#" ++ [8364]) = lit "http://example/%C3%A9/%FF#%E2%82%AC".
Proof. vm_compute. auto. Qed.

(** ** C46: two IRIs have the same normal form exactly if their components are equivalent. *)
Theorem C46_decides : forall S (keep : bool) i j C D, reads S i C -> reads S j D -> defined (c_s C) = true -> defined (c_s D) = true ->
  exists n m out out', (if keep then normalize_preserve i else normalize i) = Ok n /\ display S n = Ok out /\
    (if keep then normalize_preserve j else normalize j) = Ok m /\ display S m = Ok out' /\
    (out = out' <-> equivalent S keep C D).
Proof. exact c46_decides. Qed.
Print Assumptions C46_decides.
(** Every IRI has such components, and only these. *)
Theorem C46_applies : forall S i, IRI S i -> exists C, reads S i C /\ defined (c_s C) = true /\ forall C', reads S i C' -> C' = C.
Proof. exact c46_applies. Qed.
Print Assumptions C46_applies.
(** For text: the percent-encoding normal forms coincide exactly if the spellings can be changed into each other. *)
Theorem C46_text : forall S s s', pct_wf s -> pct_wf s' ->
  exists t t', text (PctCaseNormalized S s) = Ok t /\ text (PctCaseNormalized S s') = Ok t' /\ (t = t' <-> same_spelling S s s').
Proof. exact c46_text. Qed.
Print Assumptions C46_text.
(** The normal form is itself equivalent to the IRI. *)
Theorem C46_sound : forall S (keep : bool) i C, reads S i C -> defined (c_s C) = true ->
  exists n out T, (if keep then normalize_preserve i else normalize i) = Ok n /\ display S n = Ok out /\
    reads S out T /\ equivalent S keep C T.
Proof. exact c46_sound. Qed.
Print Assumptions C46_sound.
Example C46_ex :
  let norm i := do n <- normalize i ; display IriSpec n in
  norm (lit "HTTP://u%73er@EXAMPLE.com:/%7ea/./b/%2E./c?%c3%a9") = norm (lit "http://user@e%58ample.COM/~a/c?" ++ [233]) /\
  norm (lit "http://a/%2f") <> norm (lit "http://a//").
Proof. split; [vm_compute; reflexivity|vm_compute; discriminate]. Qed.

(** The theorems applied to concrete cases. *)
Example C45_resolve_instance := C45_resolve C45_base C45_ref ltac:(apply iri_of; ev) ltac:(apply reference_of; ev).
Example C45_normalize_instance := C45_normalize false C45_base ltac:(apply iri_of; ev).
Example C46_decides_instance := C46_decides UriSpec false (lit "HTTP://h:/a/../%7e") (lit "http://H/~")
  (mkC (Some (lit "HTTP")) (Some (lit "h:")) (lit "/a/../%7e") None None) (mkC (Some (lit "http")) (Some (lit "H")) (lit "/~") None None) ltac:(rd) ltac:(rd) eq_refl eq_refl.
Example C46_sound_instance := C46_sound UriSpec true (lit "HTTP://h:/a/../%7e") (mkC (Some (lit "HTTP")) (Some (lit "h:")) (lit "/a/../%7e") None None) ltac:(rd) eq_refl.
