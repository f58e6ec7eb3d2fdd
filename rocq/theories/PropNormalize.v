(** * Properties C15-C18: normalization.
    Specification: PctSpec.v, NormSpec.v, RfcResolve.v.  Model: MPct.v, MPath.v, MNormalize.v. *)
From Verif Require Import Base Chars Rfc3986 Utf8 CompSpec RfcResolve PctSpec NormSpec MValidate MTrusted MFormat MPct MPath MNormalize
  PTypes PPct2 PPct3 PPct4 PNorm3 PNorm6 PNorm7 PNorm8 PInst.

(** ** C15: normalization never panics, gives a valid IRI whose components are the normalized
    components of the input ([keep] is [normalize_but_preserve_authorityless_relative_path]). *)
Theorem C15_components : forall S (keep : bool) i C, reads S i C -> defined (c_s C) = true ->
  exists n T, (if keep then normalize_preserve i else normalize i) = Ok n /\
    comps_normal S keep C T /\ (forall T', comps_normal S keep C T' -> T' = T) /\
    display S n = Ok (unparse T).
Proof. exact c15_components. Qed.
Print Assumptions C15_components.
Theorem C15_valid : forall S (keep : bool) i debug, IRI S i ->
  exists n out, (if keep then normalize_preserve i else normalize i) = Ok n /\ display S n = Ok out /\
    IRI S out /\ to_dedicated_string debug S TIri n = Ok out.
Proof. exact norm_valid. Qed.
Print Assumptions C15_valid.
Theorem C15_valid_absolute : forall S (keep : bool) i debug, new S TAbsolute i = Ok i ->
  exists n out, (if keep then normalize_preserve i else normalize i) = Ok n /\ display S n = Ok out /\
    new S TAbsolute out = Ok out /\ to_dedicated_string debug S TAbsolute n = Ok out.
Proof. exact norm_valid_absolute. Qed.
Print Assumptions C15_valid_absolute.
Definition shown (S : Spec) (n : may NormalizationInput) : may str := do n <- n ; display S n.
Example C15_ex1 : shown UriSpec (normalize (lit "HTTP://uSer%41@EXAMPLE.com:/a/%2e%2E/%7e%c3%a9?%3a#%3a")) = Ok (lit "http://uSerA@example.com/~%C3%A9?%3A#%3A").
Proof. vm_compute. reflexivity. Qed.
Example C15_ex2 : shown IriSpec (normalize (lit "a:b/../%c3%a9%c3%28")) = Ok (lit "a:/" ++ [233] ++ lit "%C3%28").
Proof. vm_compute. reflexivity. Qed.
Example C15_ex3 : shown UriSpec (normalize_preserve (lit "URN:a/../B%61")) = Ok (lit "urn:a/../Ba").
Proof. vm_compute. reflexivity. Qed.

(** ** C16: idempotence. *)
Theorem C16_idempotent : forall S (keep : bool) i, IRI S i ->
  exists n out n', (if keep then normalize_preserve i else normalize i) = Ok n /\ display S n = Ok out /\
    (if keep then normalize_preserve out else normalize out) = Ok n' /\ display S n' = Ok out.
Proof. exact norm_idem. Qed.
Print Assumptions C16_idempotent.
(** [resolve(..).and_normalize()] is the normalization of the resolved IRI. *)
Theorem C16_resolve_then_normalize : forall S base ref, IRI S base -> IRI_reference S ref ->
  exists n r n' out, resolve base ref = Ok n /\ display S n = Ok r /\ normalize r = Ok n' /\
    display S n' = Ok out /\ display S (set_mode n MDefault) = Ok out.
Proof. exact resolve_then_normalize. Qed.
Print Assumptions C16_resolve_then_normalize.
(** For the preserving mode the same is false: dot segments of the merged path survive. *)
Theorem C16_resolve_preserve_refuted : exists base ref n r n' out out',
  IRI UriSpec base /\ IRI_reference UriSpec ref /\ resolve base ref = Ok n /\ display UriSpec n = Ok r /\
  normalize_preserve r = Ok n' /\ display UriSpec n' = Ok out /\
  display UriSpec (set_mode n MPreserve) = Ok out' /\ out = lit "foo:/c" /\ out' = lit "foo:a/../c".
Proof. exact c16_preserve_refuted. Qed.
Print Assumptions C16_resolve_preserve_refuted.

(** ** C17: [is_normalized], [is_normalized_rfc3986] and [is_normalized_but_authorityless_relative_path_preserved].
    The full equivalence for every IRI is false: a trailing empty port ("host:") is overlooked
    (DESIGN.md, finding F2). *)
Theorem C17_refuted : exists i n out, IRI UriSpec i /\ normalize i = Ok n /\ display UriSpec n = Ok out /\ out <> i /\
  is_normalized UriSpec i CkDefault = Ok true /\ is_normalized UriSpec i CkRfc3986 = Ok true /\
  is_normalized UriSpec i CkPreserve = Ok true.
Proof. exact c17_refuted. Qed.
Print Assumptions C17_refuted.
(** Every IRI whose authority does not end in ":". *)
Theorem C17_fixpoint_partial : forall S i mode, IRI S i ->
  (forall x, extract_authority i <> Some (x ++ lit ":")) ->
  exists n out b,
    match mode with CkPreserve => normalize_preserve i | _ => normalize i end = Ok n /\
    display S n = Ok out /\ is_normalized S i mode = Ok b /\
    (b = true <-> out = i /\ (mode = CkRfc3986 -> ensure_rfc3986_normalizable n = Ok true)).
Proof. exact c17_iff. Qed.
Print Assumptions C17_fixpoint_partial.
(** One direction holds for every IRI: a fixpoint is recognized as normalized. *)
Theorem C17_complete : forall S i mode n, IRI S i ->
  match mode with CkPreserve => normalize_preserve i | _ => normalize i end = Ok n -> display S n = Ok i ->
  (mode = CkRfc3986 -> ensure_rfc3986_normalizable n = Ok true) -> is_normalized S i mode = Ok true.
Proof. exact c17_complete. Qed.
Print Assumptions C17_complete.
Example C17_ex1 : is_normalized UriSpec (lit "foo:/.//a") CkDefault = Ok true /\
  is_normalized UriSpec (lit "foo:/.//a") CkRfc3986 = Ok false /\
  is_normalized UriSpec (lit "foo:a/../b") CkPreserve = Ok true /\
  is_normalized UriSpec (lit "foo:a/../b") CkDefault = Ok false.
Proof. vm_compute. repeat split; reflexivity. Qed.
Example C17_ex2 : is_normalized IriSpec (lit "http://user:pw@example.com:80/" ++ [233] ++ lit "%C3?%3F#%25") CkRfc3986 = Ok true /\
  forall x, extract_authority (lit "http://user:pw@example.com:80/x") <> Some (x ++ lit ":").
Proof.
  split; [vm_compute; reflexivity|]. intros x H. apply (f_equal (option_map (@rev N))) in H. cbn [option_map] in H. 
  assert (E : extract_authority (lit "http://user:pw@example.com:80/x") = Some (lit "user:pw@example.com:80")) by (vm_compute; reflexivity).
  rewrite E in H. cbn [option_map] in H. rewrite rev_app_distr in H. vm_compute in H. discriminate.
Qed.

(** ** C18: percent-encoding and case normalization of one component. *)
Theorem C18_exact : forall S s, pct_wf s ->
  exists t, text (PctCaseNormalized S s) = Ok t /\ pct_normal S s t /\ (forall t', pct_normal S s t' -> t' = t).
Proof. exact c18_display. Qed.
Print Assumptions C18_exact.
Theorem C18_same_bytes : forall S s t b, pct_normal S s t -> (denotes s b <-> denotes t b).
Proof. exact c18_denotes. Qed.
Print Assumptions C18_same_bytes.
Theorem C18_idempotent : forall S s t, pct_normal S s t -> pct_normal S t t.
Proof. exact pn_idem. Qed.
Print Assumptions C18_idempotent.
Theorem C18_grammar : forall S s t, pct_normal S s t ->
  (userinfo S s -> userinfo S t) /\ (Rfc3986.segment S s -> Rfc3986.segment S t) /\ (query S s -> query S t) /\
  (fragment S s -> fragment S t) /\ (reg_name S s -> reg_name S t).
Proof. exact c18_grammar. Qed.
Print Assumptions C18_grammar.
(** The check compares with the normal form. *)
Theorem C18_is_normalized : forall S s, pct_wf s ->
  exists b, is_pct_case_normalized S s = Ok b /\ (b = true <-> pct_normal S s s).
Proof. exact is_pct_normalized_ok. Qed.
Print Assumptions C18_is_normalized.
(** ASCII-only hosts are put in lower case as well, except the hex digits of triplets. *)
Theorem C18_host : forall S h, pct_wf h ->
  exists b, is_ascii_only_host h = Ok b /\ (b = true <-> ascii_only h) /\
    (ascii_only h -> exists t, pct_normal S h t /\ text (NormalizedAsciiOnlyHost h) = Ok (lower_raw t)).
Proof. exact c18_host. Qed.
Print Assumptions C18_host.
(** All the components of valid IRIs qualify. *)
Theorem C18_applies : forall S s, userinfo S s \/ Rfc3986.segment S s \/ query S s \/ fragment S s \/ host S s -> pct_wf s.
Proof. exact c18_applies. Qed.
Print Assumptions C18_applies.
Example C18_ex : text (PctCaseNormalized IriSpec (lit "%ce%b1%CE%ce%B2%2f%41%f0%90%80")) =
  Ok ([945] ++ lit "%CE" ++ [946] ++ lit "%2FA%F0%90%80").
Proof. vm_compute. reflexivity. Qed.
Example C16_ex : IRI UriSpec (lit "HTTP://H:/a/../%7e") /\ shown UriSpec (normalize (lit "HTTP://H:/a/../%7e")) = Ok (lit "http://h/~") /\
  shown UriSpec (normalize (lit "http://h/~")) = Ok (lit "http://h/~") /\
  match resolve (lit "HTTP://H/a/b") (lit "../%7e") with Ok n => (display UriSpec n, display UriSpec (set_mode n MDefault)) | _ => (Panic, Panic) end =
    (Ok (lit "HTTP://H/%7e"), Ok (lit "http://h/~")).
Proof. split; [apply (proj1 (PTypes.new_ok UriSpec TIri _)); vm_compute; reflexivity|]. repeat split; vm_compute; reflexivity. Qed.

(** The theorems applied to concrete cases. *)
Example C15_absolute_instance := C15_valid_absolute UriSpec false (lit "HTTP://H:/a/../%7e?q") true ltac:(ev).
Example C17_partial_hypotheses : IRI UriSpec (lit "s:a/../b") /\ forall x, extract_authority (lit "s:a/../b") <> Some (x ++ lit ":").
Proof. split; [apply iri_of; ev|]. assert (extract_authority (lit "s:a/../b") = None) as -> by ev. discriminate. Qed.
Example C17_complete_instance : exists n, is_normalized UriSpec (lit "foo:/.//a") CkDefault = Ok true /\ normalize (lit "foo:/.//a") = Ok n /\ display UriSpec n = Ok (lit "foo:/.//a").
Proof.
  destruct (normalize (lit "foo:/.//a")) as [n| |] eqn:E; [|vm_compute in E; discriminate|vm_compute in E; discriminate].
  assert (D : display UriSpec n = Ok (lit "foo:/.//a")). { assert (X : (do n <- normalize (lit "foo:/.//a") ; display UriSpec n) = Ok (lit "foo:/.//a")) by ev. rewrite E in X. exact X. }
  exists n. split; [|auto]. exact (C17_complete UriSpec (lit "foo:/.//a") CkDefault n ltac:(apply iri_of; ev) E D ltac:(discriminate)).
Qed.
Example C18_hypotheses : pct_wf (lit "a%41%c3%a9/") /\ pct_normal IriSpec (lit "a%41%c3%a9/") (lit "aA" ++ [233] ++ lit "/").
Proof.
  assert (W : pct_wf (lit "a%41%c3%a9/")) by (apply PPct.pct_wf_scan; ev). split; [exact W|].
  destruct (C18_exact IriSpec _ W) as (t & E & P & _). assert (X : text (PctCaseNormalized IriSpec (lit "a%41%c3%a9/")) = Ok (lit "aA" ++ [233] ++ lit "/")) by ev. rewrite E in X. injection X as ->. exact P.
Qed.
