(** * C60: bounds on the size (in UTF-8 bytes) of results, and buffers that always suffice. *)
From Verif Require Import Base Chars Rfc3986 Utf8 CompSpec RfcResolve NormSpec EncodeSpec MValidate MTrusted MFormat MWriters MPct MPath MNormalize MEncode MEdit PEdit PSize PInst.
Open Scope string_scope. Open Scope N_scope. Open Scope list_scope.

(** Normalization never makes the text longer: a buffer of the size of the input suffices. *)
Theorem C60_normalize : forall S (keep : bool) i buf, IRI S i -> (length (utf8s i) <= length buf)%nat -> exists n out,
  (if keep then normalize_preserve i else normalize i) = Ok n /\ display S n = Ok out /\ (length (utf8s out) <= length (utf8s i))%nat /\
  write_to_slice buf (fmt_normalized S n) = (Ok (Some (utf8s out)), utf8s out ++ skipn (length (utf8s out)) buf).
Proof. exact normalize_size. Qed.
Print Assumptions C60_normalize.
(** Resolution, in every normalization mode: the sizes of base and reference and one more. *)
Theorem C60_resolve : forall S mode base ref buf, IRI S base -> IRI_reference S ref -> (length (utf8s base) + length (utf8s ref) + 1 <= length buf)%nat -> exists n out,
  resolve base ref = Ok n /\ display S (set_mode n mode) = Ok out /\ (length (utf8s out) <= length (utf8s base) + length (utf8s ref) + 1)%nat /\
  write_to_slice buf (fmt_normalized S (set_mode n mode)) = (Ok (Some (utf8s out)), utf8s out ++ skipn (length (utf8s out)) buf).
Proof. exact resolve_size. Qed.
Print Assumptions C60_resolve.
(** Masking a password never makes the text longer. *)
Theorem C60_mask : forall S t i, editable t = true -> new S t i = Ok i ->
  exists j, text (mask_display i) = Ok j /\ (length (utf8s j) <= length (utf8s i))%nat.
Proof. exact mask_size. Qed.
Print Assumptions C60_mask.
(** Percent-encoding in any context, and the mapping to a URI, at most triple the size. *)
Theorem C60_encode : forall A S ctx (d : W A) a, snd d = Ret a -> all_scalar (concat (fst d)) = true ->
  exists out, text (PercentEncoded S ctx d) = Ok out /\ (length (utf8s out) <= 3 * length (utf8s (concat (fst d))))%nat.
Proof. exact encoder_size. Qed.
Print Assumptions C60_encode.
Theorem C60_to_uri : forall s, all_scalar s = true ->
  exists out, text (MappedToUri s) = Ok out /\ (length (utf8s out) <= 3 * length (utf8s s))%nat.
Proof. exact mapped_size. Qed.
Print Assumptions C60_to_uri.
(** The bounds are attained. *)
Example C60_tight :
  let there b r := do n <- resolve (lit b) (lit r) ; display UriSpec n in let nrm x := do n <- normalize (lit x) ; display UriSpec n in
  there "s://h" "a" = Ok (lit "s://h/a") /\ nrm "s:/.//a" = Ok (lit "s:/.//a") /\ nrm "s:/x/..//a" = Ok (lit "s:/.//a") /\
  text (MappedToUri [233]) = Ok (lit "%C3%A9") /\ text (PercentEncoded UriSpec CUnreserve (write (lit "/"))) = Ok (lit "%2F").
Proof. vm_compute. auto 10. Qed.
Example C60_ex : exists n, normalize (lit "HTTP://h%41:/x/../%7e") = Ok n /\
  write_to_slice (repeat 0 21) (fmt_normalized UriSpec n) = (Ok (Some (utf8s (lit "http://ha/~"))), utf8s (lit "http://ha/~") ++ repeat 0 10).
Proof. eexists. split; [vm_compute; reflexivity|vm_compute; reflexivity]. Qed.

(** The theorems applied to concrete cases. *)
Example C60_normalize_instance := C60_normalize UriSpec false (lit "HTTP://h%41:/x/../%7e") (repeat 0 21) ltac:(apply iri_of; ev) ltac:(vm_compute; lia).
Example C60_resolve_instance := C60_resolve UriSpec MDefault (lit "http://h/a") (lit "../b") (repeat 0 15) ltac:(apply iri_of; ev) ltac:(apply reference_of; ev) ltac:(vm_compute; lia).
Example C60_mask_instance := C60_mask UriSpec TReference (lit "//u:p@h") eq_refl ltac:(ev).
