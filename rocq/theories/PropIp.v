(** * Property C75: IP address hosts.  Specification: IpSpec.v (what a host text denotes).
    Model: MBuild.v ([IpAddr] and its Display), MValidate.v, MTrusted.v, MNormalize.v. *)
From Verif Require Import Base Chars Rfc3986 CompSpec RfcResolve PctSpec NormSpec EditSpec BuildSpec MValidate MTrusted MFormat MPct MPath MNormalize MEdit MBuild
  IpSpec PIp PIp2 PTypes PScan PValidate PHost PAuth PInst.

(** The grammar (the one that the validators decide, C01) is that of texts that denote an address ... *)
Theorem C75_v4_valid : forall s, IPv4address s <-> exists x, v4_denotes s x.
Proof. exact v4_valid. Qed.
Print Assumptions C75_v4_valid.
Theorem C75_v6_valid : forall s, IPv6address s <-> exists l, v6_denotes s l.
Proof. exact v6_valid. Qed.
Print Assumptions C75_v6_valid.
(** ... exactly one, with components in range. *)
Theorem C75_unique : forall h a b, host_denotes h a -> host_denotes h b -> a = b.
Proof. exact host_unique. Qed.
Print Assumptions C75_unique.
Theorem C75_address : forall h a, host_denotes h a -> ip_address a.
Proof. exact host_address. Qed.
Print Assumptions C75_address.
(** A reported host is either a registered name, and then no address; or an address, or "[vX.text]". *)
Theorem C75_reported : forall S i h, IRI_reference S i -> reports i h -> exists A, authority_components i = Some A /\
  (ac_reg_name A = Ok (Some h) /\ (forall a, ~ host_denotes h a) \/
   ac_reg_name A = Ok None /\ ((exists a, host_denotes h a) \/ exists s, h = lit "[" ++ s ++ lit "]" /\ IPvFuture s)).
Proof. exact reported_kind. Qed.
Print Assumptions C75_reported.
(** A builder that was given an address, with or without normalization, builds a text whose host is this
    address. *)
Theorem C75_builder : forall S t b ab a x, editable t = true -> values_ok b -> path S (b_path b) ->
  b_authority b = Some ab -> ab_host ab = HostIp a -> build S t b = Ok x ->
  exists i h, text (built_display S x) = Ok i /\ new S t i = Ok i /\ reports i h /\ host_denotes h a.
Proof. exact build_address. Qed.
Print Assumptions C75_builder.
(** Different addresses, different texts. *)
Theorem C75_distinct : forall a b, ip_address a -> ip_address b -> host_text (HostIp a) = host_text (HostIp b) -> a = b.
Proof. exact (fun a b A B E => host_unique _ a b (ip_text_denotes a A) (eq_ind_r (fun t => host_denotes t b) (ip_text_denotes b B) E)). Qed.
Print Assumptions C75_distinct.
(** Normalization does not change the address. *)
Theorem C75_normalize : forall S (keep : bool) i h a, IRI S i -> reports i h -> host_denotes h a ->
  exists n out h', (if keep then normalize_preserve i else normalize i) = Ok n /\ display S n = Ok out /\ reports out h' /\ host_denotes h' a.
Proof. exact normalize_address. Qed.
Print Assumptions C75_normalize.

(** ** Instances *)
Example C75_v4 : v4_denotes (lit "192.0.2.255") (192, 0, 2, 255).
Proof. apply (v4_quad (lit "192") (lit "0") (lit "2") (lit "255")); apply is_dec_octet_iff; vm_compute; reflexivity. Qed.
Ltac wd := apply h16_iff; split; [cbn; lia|reflexivity].
Example C75_v6 : host_denotes (lit "[2001:DB8::FFFF:1.2.3.4]") (V6 [8193; 3512; 0; 0; 0; 65535; 258; 772]).
Proof.
  apply (host_v6 (lit "2001:DB8::FFFF:1.2.3.4")).
  apply (v6_short (lit "2001:DB8") (lit "FFFF:1.2.3.4") [8193; 3512] [65535; 258; 772] 3); [right|right|lia|reflexivity].
  - apply (words_more (lit "2001") (lit "DB8") [3512]); [wd|]. apply (words_one (lit "DB8")). wd.
  - apply (low_more (lit "FFFF") (lit "1.2.3.4") [258; 772]); [wd|]. apply (low_v4 _ 1 2 3 4).
    apply (v4_quad (lit "1") (lit "2") (lit "3") (lit "4")); apply is_dec_octet_iff; vm_compute; reflexivity.
Qed.
Definition ex_iri := lit "HTTP://u@[2001:DB8::FFFF:1.2.3.4]:80/a".
Example C75_ex_reports : reports ex_iri (lit "[2001:DB8::FFFF:1.2.3.4]").
Proof. eexists. split; vm_compute; reflexivity. Qed.
Example C75_ex_normalize := C75_normalize UriSpec false ex_iri (lit "[2001:DB8::FFFF:1.2.3.4]") (V6 [8193; 3512; 0; 0; 0; 65535; 258; 772]) ltac:(apply iri_of; ev) C75_ex_reports C75_v6.
Example C75_ex_reported := C75_reported UriSpec ex_iri (lit "[2001:DB8::FFFF:1.2.3.4]") ltac:(apply reference_of; ev) C75_ex_reports.
Definition ex_builder := b_steps [OpScheme (lit "http"); OpIpAddress (V6 [8193; 3512; 0; 0; 0; 65535; 258; 772]); OpPath (lit "/x"); OpNormalize].
Example C75_ex_builder_value :
  match build UriSpec TIri ex_builder with Ok x => text (built_display UriSpec x) | _ => Panic end = Ok (lit "http://[2001:db8::ffff:102:304]/x").
Proof. vm_compute. reflexivity. Qed.
Lemma ex_values : values_ok ex_builder.
Proof. split; [exact I|]. split; [reflexivity|]. repeat (apply Forall_cons; [reflexivity|]). apply Forall_nil. Qed.
Lemma ex_path : path UriSpec (b_path ex_builder).
Proof. apply path_scan. vm_compute. reflexivity. Qed.
Example C75_ex_builder := fun x => C75_builder UriSpec TIri ex_builder _ _ x eq_refl ex_values ex_path eq_refl eq_refl.
Lemma ex_v4 : ip_address (V4 1 2 3 4).
Proof. repeat split. Qed.
Lemma ex_v6 : ip_address (V6 [0; 0; 0; 0; 0; 65535; 258; 772]).
Proof. split; [reflexivity|]. repeat (apply Forall_cons; [reflexivity|]). apply Forall_nil. Qed.
Example C75_ex_distinct := C75_distinct _ _ ex_v4 ex_v6.
