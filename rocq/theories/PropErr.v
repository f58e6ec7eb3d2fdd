(** * Property C40: which component an error message names; C03 for [validate::port].
    Specification: Rfc3986.v, CompSpec.v, ErrSpec.v.  Model: MValidate.v, MTrusted.v, MError.v. *)
From Verif Require Import Base Chars Rfc3986 CompSpec MValidate MTrusted MError ErrSpec PTypes PErr.

Theorem C03_port : recognizes validate_port (fun _ => tt) port.
Proof. exact (recog_unit _ _ validate_port_iff (fun s => PBase.check_np _ _)). Qed.
Print Assumptions C03_port.
Example C03_port_ex : port (lit "0999999999") /\ validate_port (lit ":443") = Err InvalidPort.
Proof. split; [apply validate_port_iff|]; vm_compute; reflexivity. Qed.

(** Every string can be cut into components by its delimiters, in exactly one way. *)
Theorem C40_cut_total : forall r, exists a p q f, cut r a p q f.
Proof. exact cut_ex. Qed.
Print Assumptions C40_cut_total.
Theorem C40_cut_unique : forall r a p q f a' p' q' f', cut r a p q f -> cut r a' p' q' f' ->
  a = a' /\ p = p' /\ q = q' /\ f = f'.
Proof. exact cut_unique. Qed.
Print Assumptions C40_cut_unique.

(** [new] of each type fails exactly when some message is to be blamed, and then with that message. *)
Theorem C40_iri : forall S, reports (new S TIri) error_display (blames_iri S True).
Proof. exact iri_reports. Qed.
Print Assumptions C40_iri.
Theorem C40_absolute : forall S, reports (new S TAbsolute) error_display (blames_iri S False).
Proof. exact absolute_reports. Qed.
Print Assumptions C40_absolute.
Theorem C40_reference : forall S, reports (new S TReference) error_display (blames_reference S).
Proof. exact reference_reports. Qed.
Print Assumptions C40_reference.
Theorem C40_relative : forall S, reports (new S TRelative) error_display (blames_relative S).
Proof. exact relative_reports. Qed.
Print Assumptions C40_relative.
Theorem C40_query : forall S,
  reports (new S TQuery) error_display (fun s m => ~ query S s /\ m = "invalid query"%string).
Proof. exact query_reports. Qed.
Print Assumptions C40_query.
Theorem C40_fragment : forall S,
  reports (new S TFragment) error_display (fun s m => ~ fragment S s /\ m = "invalid fragment"%string).
Proof. exact fragment_reports. Qed.
Print Assumptions C40_fragment.

(** The component validators. *)
Theorem C40_authority : forall S, reports (validate_authority S) error_display (blames_authority S).
Proof. exact authority_reports. Qed.
Print Assumptions C40_authority.
Theorem C40_components : forall S,
  reports validate_scheme error_display (fun s m => ~ scheme s /\ m = "invalid scheme"%string) /\
  reports (validate_userinfo S) error_display (fun s m => ~ userinfo S s /\ m = "invalid userinfo"%string) /\
  reports (validate_host S) error_display (fun s m => ~ host S s /\ m = "invalid host"%string) /\
  reports (validate_reg_name S) error_display
    (fun s m => ~ (reg_name S s /\ ~ IPv4address s) /\ m = "invalid reg-name"%string) /\
  reports validate_port error_display (fun s m => ~ port s /\ m = "invalid port"%string) /\
  reports (validate_path S) error_display (fun s m => ~ path S s /\ m = "invalid path"%string) /\
  reports (validate_path_segment S) error_display (fun s m => ~ segment S s /\ m = "invalid path"%string).
Proof. exact component_reports. Qed.
Print Assumptions C40_components.

(** A string is blamed for one thing only. *)
Theorem C40_unique : forall S s m m',
  (blames_iri S True s m -> blames_iri S True s m' -> m = m') /\
  (blames_iri S False s m -> blames_iri S False s m' -> m = m') /\
  (blames_reference S s m -> blames_reference S s m' -> m = m') /\
  (blames_relative S s m -> blames_relative S s m' -> m = m').
Proof. exact blames_unique. Qed.
Print Assumptions C40_unique.

(** Both the userinfo and the fragment are bad: the userinfo is named; a bad port is blamed on the host;
    a bad scheme of a reference makes it a relative reference with a bad path. *)
Example C40_ex1 : blames_iri UriSpec True (lit "http://u[@h/p?q#f#") "invalid userinfo".
Proof. apply (proj1 (C40_iri UriSpec _ _)). eexists. split; vm_compute; reflexivity. Qed.
Example C40_ex2 : blames_iri UriSpec True (lit "http://h:8x/p?q##") "invalid host".
Proof. apply (proj1 (C40_iri UriSpec _ _)). eexists. split; vm_compute; reflexivity. Qed.
Example C40_ex3 : blames_reference UriSpec (lit "1a:b?[") "invalid path".
Proof. apply (proj1 (C40_reference UriSpec _ _)). eexists. split; vm_compute; reflexivity. Qed.
Example C40_ex4 : blames_iri UriSpec True (lit "1a:b?[") "invalid scheme".
Proof. apply (proj1 (C40_iri UriSpec _ _)). eexists. split; vm_compute; reflexivity. Qed.
Example C40_ex5 : blames_iri IriSpec False (lit "a:b#[") "unexpected fragment".
Proof. apply (proj1 (C40_absolute IriSpec _ _)). eexists. split; vm_compute; reflexivity. Qed.
