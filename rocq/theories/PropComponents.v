(** * Properties C07-C09: decomposition.  Specification: CompSpec.v, Rfc3986.v.  Model: MTrusted.v. *)
From Verif Require Import Base Chars Rfc3986 CompSpec MValidate MTrusted PTypes PTypes2.

(** ** C07: the decomposition into major components is lossless, grammatical and the only one. *)
Theorem C07_lossless_unique : forall S i, IRI_reference S i -> exists s a p q f,
  to_major i = Ok (s, a, p, q, f) /\ recompose s a p q f = i /\ components_ok S s a p q f /\
  (forall s' a' p' q' f', components_ok S s' a' p' q' f' -> recompose s' a' p' q' f' = i ->
     (s', a', p', q', f') = (s, a, p, q, f)).
Proof. exact to_major_spec. Qed.
Print Assumptions C07_lossless_unique.
(** Conversely grammatical components always recompose to a valid reference. *)
Theorem C07_recompose_valid : forall S s a p q f, components_ok S s a p q f ->
  new S TReference (recompose s a p q f) = Ok (recompose s a p q f) /\
  to_major (recompose s a p q f) = Ok (s, a, p, q, f).
Proof. exact recompose_valid. Qed.
Print Assumptions C07_recompose_valid.
Example C07_ex : to_major (lit "http://u@h:80/a/b?x=1#f") =
  Ok (Some (lit "http"), Some (lit "u@h:80"), lit "/a/b", Some (lit "x=1"), Some (lit "f")).
Proof. vm_compute. reflexivity. Qed.
Example C07_ex2 : to_major (lit "a/b:c?#") = Ok (None, None, lit "a/b:c", Some [], Some []).
Proof. vm_compute. reflexivity. Qed.

(** ** C08: every accessor of every type, and of [FixedBaseResolver], returns the component of that
    unique decomposition; typed query/fragment are valid and no debug assertion fires. *)
Theorem C08_accessors : forall debug S t i,
  t = TIri \/ t = TReference \/ t = TRelative -> new S t i = Ok i ->
  exists s a p q f, to_major i = Ok (s, a, p, q, f) /\ components_ok S s a p q f /\
    scheme_str t i = Ok s /\ authority_str t i = Ok a /\ path_str t i = Ok p /\
    query_str debug t i = Ok q /\ fragment_str t i = Ok f /\
    query_ri debug S t i = Ok q /\ fragment_ri debug S t i = Ok f.
Proof. exact accessors_all. Qed.
Print Assumptions C08_accessors.
(** RiAbsoluteStr: on every string of the RFC's absolute-IRI language. *)
Theorem C08_accessors_absolute_partial : forall debug S i, absolute_IRI S i ->
  exists s a p q, to_major i = Ok (Some s, a, p, q, None) /\ components_ok S (Some s) a p q None /\
    scheme_str TAbsolute i = Ok (Some s) /\ authority_str TAbsolute i = Ok a /\ path_str TAbsolute i = Ok p /\
    query_str debug TAbsolute i = Ok q /\ query_ri debug S TAbsolute i = Ok q.
Proof. exact accessors_absolute. Qed.
Print Assumptions C08_accessors_absolute_partial.
(** ... but on a string RiAbsoluteStr accepts although it is not an absolute-IRI (C02), [query_str]
    returns the '#' as part of the query, and panics in debug builds. *)
Theorem C08_absolute_query_refuted :
  (exists i q, new IriSpec TAbsolute i = Ok i /\ query_str true TAbsolute i = Ok (Some q) /\
     ~ query IriSpec q /\ query_str false TIri i <> query_str false TAbsolute i) /\
  (exists i, new IriSpec TAbsolute i = Ok i /\ query_str true TAbsolute i = Panic).
Proof. exact absolute_query_refuted. Qed.
Print Assumptions C08_absolute_query_refuted.
Theorem C08_resolver : forall S base, new S TAbsolute base = Ok base -> exists s a p q f,
  to_major base = Ok (Some s, a, p, q, f) /\
  resolver_scheme_str base = Ok s /\ resolver_authority_str base = Ok a /\
  resolver_path_str base = Ok p /\ resolver_query_str base = Ok q.
Proof. exact resolver_all. Qed.
Print Assumptions C08_resolver.
Example C08_ex : new UriSpec TRelative (lit "//h/p?q#f") = Ok (lit "//h/p?q#f") /\
  authority_str TRelative (lit "//h/p?q#f") = Ok (Some (lit "h")).
Proof. vm_compute. split; reflexivity. Qed.

(** ** C09: authority components. *)
Theorem C09_authority : forall S i, authority S i -> exists u h p,
  let A := decompose_authority i in
  ac_userinfo A = Ok u /\ ac_host A = Ok h /\ ac_port A = Ok p /\
  (ac_reg_name A = Ok (Some h) \/ ac_reg_name A = Ok None) /\
  (ac_reg_name A = Ok (Some h) <-> ~ IP_literal h /\ ~ IPv4address h) /\
  authority_string u h p = i /\ opt_in (userinfo S) u /\ host S h /\ opt_in port p.
Proof. exact authority_components_spec. Qed.
Print Assumptions C09_authority.
Theorem C09_unique : forall S u h p u' h' p',
  opt_in (userinfo S) u -> host S h -> opt_in port p ->
  opt_in (userinfo S) u' -> host S h' -> opt_in port p' ->
  authority_string u h p = authority_string u' h' p' -> (u, h, p) = (u', h', p').
Proof. exact authority_unique. Qed.
Print Assumptions C09_unique.
(** [authority_components()] of a reference is present iff the authority is, and decomposes it. *)
Theorem C09_of_reference : forall S i s a p q f, IRI_reference S i -> to_major i = Ok (s, a, p, q, f) ->
  authority_components i = match a with Some x => Some (decompose_authority x) | None => None end.
Proof. exact authority_components_major. Qed.
Print Assumptions C09_of_reference.
Example C09_ex : let A := decompose_authority (lit "u:p@[::1]:80") in
  authority UriSpec (lit "u:p@[::1]:80") /\ ac_userinfo A = Ok (Some (lit "u:p")) /\ ac_host A = Ok (lit "[::1]")
  /\ ac_port A = Ok (Some (lit "80")) /\ ac_reg_name A = Ok None.
Proof. split; [apply PAuth.validate_authority_iff; vm_compute; reflexivity|]. vm_compute. repeat split; reflexivity. Qed.
