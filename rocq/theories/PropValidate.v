(** * Properties C01-C06: validation and the string types.
    Specification: Rfc3986.v.  Model: MValidate.v, MTrusted.v. *)
From Verif Require Import Base Chars Rfc3986 CompSpec MValidate MTrusted PScan PHost PAuth PValidate PAscii PTypes.

(** ** C01: [new] of RiStr / RiReferenceStr / RiRelativeStr is exactly the RFC grammar: it returns the
    string itself for members and an error value (never a panic) for non-members. *)
Theorem C01_iri_exact : forall S, recognizes (new S TIri) (fun s => s) (IRI S).
Proof. exact (fun S => new_recognizes S TIri). Qed.
Print Assumptions C01_iri_exact.
Theorem C01_reference_exact : forall S, recognizes (new S TReference) (fun s => s) (IRI_reference S).
Proof. exact (fun S => new_recognizes S TReference). Qed.
Print Assumptions C01_reference_exact.
Theorem C01_relative_exact : forall S, recognizes (new S TRelative) (fun s => s) (relative_ref S).
Proof. exact (fun S => new_recognizes S TRelative). Qed.
Print Assumptions C01_relative_exact.
Example C01_ex1 : new UriSpec TIri (lit "http://u:p@[::1%25]:80/a") = Err InvalidHost.
Proof. vm_compute. reflexivity. Qed.
Example C01_ex2 : IRI UriSpec (lit "http://u:p@[::ffff:1.2.3.4]:80/a;b/%2F?q/?#f?").
Proof. apply (new_ok UriSpec TIri). vm_compute. reflexivity. Qed.
Example C01_ex3 : ~ IRI_reference IriSpec (lit "a:b%2").
Proof. intros H. apply (new_ok IriSpec TReference) in H. vm_compute in H. discriminate. Qed.

(** ** C02: RiAbsoluteStr.  The full statement
    [forall S, recognizes (new S TAbsolute) (fun s => s) (absolute_IRI S)] is false: an empty
    fragment is accepted (see DESIGN.md, finding F1). *)
Theorem C02_absolute_refuted : forall S, exists s, new S TAbsolute s = Ok s /\ ~ absolute_IRI S s.
Proof. exact absolute_refuted. Qed.
Print Assumptions C02_absolute_refuted.
(** Exactly what is accepted: an absolute IRI, optionally followed by an empty fragment ("#"). *)
Theorem C02_absolute_exact_partial : forall S s, new S TAbsolute s <> Panic /\
  (new S TAbsolute s = Ok s <-> absolute_IRI S s \/ exists s', s = s' ++ lit "#" /\ absolute_IRI S s').
Proof. exact (fun S s => conj (absolute_new_np S s) (absolute_new_exact S s)). Qed.
Print Assumptions C02_absolute_exact_partial.
Example C02_ex : new IriSpec TAbsolute (lit "foo:?q#") = Ok (lit "foo:?q#") /\
  new IriSpec TAbsolute (lit "foo:?q#f") = Err UnexpectedFragment.
Proof. vm_compute. split; reflexivity. Qed.

(** ** C03: component validators. *)
Theorem C03_scheme : recognizes validate_scheme (fun _ => tt) scheme.
Proof. exact (recog_unit _ _ validate_scheme_iff validate_scheme_np). Qed.
Print Assumptions C03_scheme.
Theorem C03_authority : forall S, recognizes (validate_authority S) (fun _ => tt) (authority S).
Proof. exact (fun S => recog_unit _ _ (validate_authority_iff S) (validate_authority_np S)). Qed.
Print Assumptions C03_authority.
Theorem C03_userinfo : forall S, recognizes (validate_userinfo S) (fun _ => tt) (userinfo S).
Proof. exact (fun S => recog_unit _ _ (validate_userinfo_iff S) (fun s => PBase.check_np _ _)). Qed.
Print Assumptions C03_userinfo.
Theorem C03_host : forall S, recognizes (validate_host S) (fun _ => tt) (host S).
Proof. exact (fun S => recog_unit _ _ (validate_host_iff S) (validate_host_np S)). Qed.
Print Assumptions C03_host.
Theorem C03_reg_name : forall S,
  recognizes (validate_reg_name S) (fun _ => tt) (fun s => reg_name S s /\ ~ IPv4address s).
Proof. exact (fun S => recog_unit _ _ (validate_reg_name_iff S) (fun s => PBase.check_np _ _)). Qed.
Print Assumptions C03_reg_name.
Theorem C03_query : forall S, recognizes (validate_query S) (fun _ => tt) (query S).
Proof. exact (fun S => recog_unit _ _ (validate_query_iff S) (fun s => PBase.check_np _ _)). Qed.
Print Assumptions C03_query.
Theorem C03_fragment : forall S, recognizes (validate_fragment S) (fun _ => tt) (fragment S).
Proof. exact (fun S => recog_unit _ _ (validate_fragment_iff S) (fun s => PBase.check_np _ _)). Qed.
Print Assumptions C03_fragment.
Theorem C03_path : forall S, recognizes (validate_path S) (fun _ => tt) (path S).
Proof. exact (fun S => recog_unit _ _ (validate_path_iff S) (fun s => PBase.check_np _ _)). Qed.
Print Assumptions C03_path.
Theorem C03_path_segment : forall S, recognizes (validate_path_segment S) (fun _ => tt) (segment S).
Proof. exact (fun S => recog_unit _ _ (validate_path_segment_iff S) (fun s => PBase.check_np _ _)). Qed.
Print Assumptions C03_path_segment.
Example C03_ex : reg_name UriSpec (lit "a.b") /\ ~ IPv4address (lit "256.1.1.1") /\ IPv4address (lit "255.1.1.1").
Proof.
  rewrite <- !validate_ipv4_iff, reg_name_scan. repeat split; vm_compute; try reflexivity. discriminate.
Qed.

(** ** C04: IP literals. *)
Theorem C04_bracketed : forall S m,
  validate_host S (lit "[" ++ m ++ lit "]") = Ok tt <-> IPv6address m \/ IPvFuture m.
Proof. exact bracketed_host_iff. Qed.
Print Assumptions C04_bracketed.
Theorem C04_ipv6 : recognizes validate_ipv6address (fun _ => tt) IPv6address.
Proof. exact (recog_unit _ _ validate_ipv6_iff validate_ipv6_np). Qed.
Print Assumptions C04_ipv6.
Theorem C04_ipv4 : recognizes validate_ipv4address (fun _ => tt) IPv4address.
Proof. exact (recog_unit _ _ validate_ipv4_iff validate_ipv4_np). Qed.
Print Assumptions C04_ipv4.
(** dec-octet of the RFC really is the decimal numerals 0..255 without leading zeros. *)
Theorem C04_dec_octet_value : forall s, dec_octet s <->
  (s = lit "0" \/ exists c r, s = c :: r /\ between 49 57 c = true) /\
  forallb DIGIT s = true /\ fold_left (fun n c => 10 * n + (c - 48)) s 0 < 256.
Proof. exact dec_octet_value. Qed.
Print Assumptions C04_dec_octet_value.
Example C04_ex : IPv6address (lit "::ffff:192.0.2.1") /\ ~ IPv6address (lit "1:2:3:4:5:6:7::8").
Proof. rewrite <- !validate_ipv6_iff. split; vm_compute; [reflexivity|discriminate]. Qed.

(** ** C05: URI types are the ASCII part of the IRI types (all six type pairs [t], debug or release). *)
Theorem C05_uri_is_iri : forall debug t s, new UriSpec t s = Ok s ->
  as_iri debug t s = Ok s /\ new IriSpec t s = Ok s.
Proof. exact as_iri_ok. Qed.
Print Assumptions C05_uri_is_iri.
Theorem C05_iri_to_uri : forall debug t s, new IriSpec t s = Ok s ->
  as_uri debug t s = Ok (if all_ascii s then Some s else None) /\
  (all_ascii s = true <-> new UriSpec t s = Ok s).
Proof. exact as_uri_ok. Qed.
Print Assumptions C05_iri_to_uri.
Theorem C05_grammar : forall s,
  (IRI UriSpec s <-> IRI IriSpec s /\ all_ascii s = true) /\
  (absolute_IRI UriSpec s <-> absolute_IRI IriSpec s /\ all_ascii s = true) /\
  (relative_ref UriSpec s <-> relative_ref IriSpec s /\ all_ascii s = true) /\
  (IRI_reference UriSpec s <-> IRI_reference IriSpec s /\ all_ascii s = true) /\
  (query UriSpec s <-> query IriSpec s /\ all_ascii s = true) /\
  (fragment UriSpec s <-> fragment IriSpec s /\ all_ascii s = true).
Proof.
  exact (fun s => conj (asc_IRI s) (conj (asc_absolute_IRI s) (conj (asc_relative s)
    (conj (asc_reference s) (conj (asc_query s) (asc_fragment s)))))).
Qed.
Print Assumptions C05_grammar.
Example C05_ex : new IriSpec TIri (lit "http://" ++ [233; 233] ++ lit "/") = Ok (lit "http://" ++ [233; 233] ++ lit "/")
  /\ as_uri true TIri (lit "http://" ++ [233; 233] ++ lit "/") = Ok None.
Proof. vm_compute. split; reflexivity. Qed.

(** ** C06: hierarchy and classification. *)
Theorem C06_hierarchy : forall S s,
  (new S TAbsolute s = Ok s -> new S TIri s = Ok s) /\
  (new S TIri s = Ok s -> new S TReference s = Ok s) /\
  (new S TRelative s = Ok s -> new S TReference s = Ok s).
Proof. exact ty_lang_hier. Qed.
Print Assumptions C06_hierarchy.
Theorem C06_exclusive : forall S s, IRI_reference S s ->
  (IRI S s /\ ~ relative_ref S s) \/ (relative_ref S s /\ ~ IRI S s).
Proof. exact class_xor. Qed.
Print Assumptions C06_exclusive.
(** [to_iri]: [inl] is Ok(RiStr), [inr] is Err(RiRelativeStr); dually for [to_relative_iri]. *)
Theorem C06_to_iri : forall debug S s, IRI_reference S s ->
  (IRI S s -> to_iri debug S s = Ok (inl s)) /\ (relative_ref S s -> to_iri debug S s = Ok (inr s)).
Proof. exact to_iri_spec. Qed.
Print Assumptions C06_to_iri.
Theorem C06_to_relative_iri : forall debug S s, IRI_reference S s ->
  (IRI S s -> to_relative_iri debug S s = Ok (inr s)) /\
  (relative_ref S s -> to_relative_iri debug S s = Ok (inl s)).
Proof. exact to_relative_iri_spec. Qed.
Print Assumptions C06_to_relative_iri.
Example C06_ex : to_iri true UriSpec (lit "a/b:c") = Ok (inr (lit "a/b:c")) /\
  to_iri true UriSpec (lit "a:b/c") = Ok (inl (lit "a:b/c")).
Proof. vm_compute. split; reflexivity. Qed.
