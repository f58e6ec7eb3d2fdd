(** * C59: editing commutes with resolution. *)
From Verif Require Import Base Chars Rfc3986 Utf8 CompSpec RfcResolve NormSpec EditSpec MValidate MTrusted MFormat MWriters MPct MPath MNormalize MEdit PNorm8 PEditRes PInst.
Open Scope string_scope. Open Scope N_scope. Open Scope list_scope.

(** Resolving and then masking the password is masking the passwords of both and then resolving. *)
Theorem C59_mask : forall S base ref, IRI S base -> IRI_reference S ref -> exists n out b r m k,
  resolve base ref = Ok n /\ display S n = Ok out /\ text (mask_display base) = Ok b /\ text (mask_display ref) = Ok r /\
  resolve b r = Ok m /\ display S m = Ok k /\ text (mask_display out) = Ok k.
Proof. exact mask_resolve. Qed.
Print Assumptions C59_mask.
(** The fragment may be set before or after resolving. *)
Theorem C59_fragment : forall debug S t base ref f, IRI S base -> fragmentable t = true -> new S t ref = Ok ref -> opt_in (fragment S) f -> exists n out r m k,
  resolve base ref = Ok n /\ display S n = Ok out /\ set_fragment debug S t ref f = Ok r /\
  resolve base r = Ok m /\ display S m = Ok k /\ set_fragment debug S TIri out f = Ok k.
Proof. exact fragment_resolve. Qed.
Print Assumptions C59_fragment.
(** With a reference that has no authority (and no scheme), removing or replacing the password or
    replacing the host of the base can be postponed until after resolving. *)
Theorem C59_remove : forall debug S base ref B R user pw h o, dissects S base B (Some (user_password user pw)) h o -> ~ In 58 user -> defined (c_s B) = true ->
  reads S ref R -> defined (c_s R) = false -> defined (c_a R) = false ->
  exists n out b m k, resolve base ref = Ok n /\ display S n = Ok out /\ remove_password_inline debug S TIri base = Ok b /\
  resolve b ref = Ok m /\ display S m = Ok k /\ remove_password_inline debug S TIri out = Ok k.
Proof. exact remove_resolve. Qed.
Print Assumptions C59_remove.
Theorem C59_replace : forall S base ref B R user pw h o x, dissects S base B (Some (user_password user pw)) h o -> ~ In 58 user -> defined (c_s B) = true -> userinfo S x ->
  reads S ref R -> defined (c_s R) = false -> defined (c_a R) = false ->
  exists n out b m k, resolve base ref = Ok n /\ display S n = Ok out /\ text (replaced_display base (fun _ => write x)) = Ok b /\
  resolve b ref = Ok m /\ display S m = Ok k /\ text (replaced_display out (fun _ => write x)) = Ok k.
Proof. exact replace_resolve. Qed.
Print Assumptions C59_replace.
(** (In debug builds [replace_host] of an IRI with a fragment panics, F6.) *)
Theorem C59_host : forall debug S base ref B R u h o g, dissects S base B u h o -> defined (c_s B) = true -> host S g ->
  reads S ref R -> defined (c_s R) = false -> defined (c_a R) = false ->
  (debug = false \/ (c_f B = None \/ c_f B = Some []) /\ (c_f R = None \/ c_f R = Some [])) ->
  exists n out b m k, resolve base ref = Ok n /\ display S n = Ok out /\ replace_host debug true S TIri base g false = Ok (Some g, b) /\
  resolve b ref = Ok m /\ display S m = Ok k /\ replace_host debug true S TIri out g false = Ok (Some g, k).
Proof. exact host_resolve. Qed.
Print Assumptions C59_host.
Example C59_ex :
  let base := lit "http://us:p%41@h:80/a/b?q#f" in let ref := lit "../c?x" in let there x r := do n <- resolve x r ; display UriSpec n in
  new UriSpec TIri base = Ok base /\ new UriSpec TReference ref = Ok ref /\
  there base ref = Ok (lit "http://us:p%41@h:80/c?x") /\
  (do b <- text (mask_display base) ; there b ref) = Ok (lit "http://us:@h:80/c?x") /\
  (do b <- text (mask_display base) ; do r <- text (mask_display (lit "//v:w@/")) ; there b r) = Ok (lit "http://v:@/") /\
  (do r <- set_fragment true UriSpec TReference ref (Some (lit "g")) ; there base r) = Ok (lit "http://us:p%41@h:80/c?x#g") /\
  (do b <- remove_password_inline true UriSpec TIri base ; there b ref) = Ok (lit "http://us@h:80/c?x") /\
  (do b <- text (replaced_display base (fun _ => write (lit "y"))) ; there b ref) = Ok (lit "http://us:y@h:80/c?x").
Proof. vm_compute. auto 10. Qed.
Example C59_applies : dissects UriSpec (lit "http://u:p@h:8/x?q")
    (mkC (Some (lit "http")) (Some (lit "u:p@h:8")) (lit "/x") (Some (lit "q")) None) (Some (user_password (lit "u") (lit "p"))) (lit "h") (Some (lit "8")) /\
  reads UriSpec (lit "../c") (mkC None None (lit "../c") None None).
Proof. split; [exact PEdit.dissects_example|]. apply reads_of_major; vm_compute; reflexivity. Qed.

(** The theorems applied to concrete cases. *)
Definition C59_B : comps := mkC (Some (lit "http")) (Some (lit "u:p@h:8")) (lit "/x") (Some (lit "q")) None.
Definition C59_R : comps := mkC None None (lit "../c") None None.
Example C59_mask_instance := C59_mask UriSpec (lit "http://u:p@h:8/x?q") (lit "//v:w@/") ltac:(apply iri_of; ev) ltac:(apply reference_of; ev).
Example C59_fragment_instance := C59_fragment true UriSpec TRelative (lit "http://u:p@h:8/x?q") (lit "../c") (Some (lit "f")) ltac:(apply iri_of; ev) eq_refl ltac:(ev) ltac:(apply fragment_of; ev).
Example C59_remove_instance := C59_remove true UriSpec (lit "http://u:p@h:8/x?q") (lit "../c") C59_B C59_R (lit "u") (lit "p") (lit "h") (Some (lit "8")) ltac:(ds) ltac:(out) eq_refl ltac:(rd) eq_refl eq_refl.
Example C59_replace_instance := C59_replace UriSpec (lit "http://u:p@h:8/x?q") (lit "../c") C59_B C59_R (lit "u") (lit "p") (lit "h") (Some (lit "8")) (lit "y") ltac:(ds) ltac:(out) eq_refl
  ltac:(apply userinfo_of; ev) ltac:(rd) eq_refl eq_refl.
Example C59_host_instance := C59_host true UriSpec (lit "http://u:p@h:8/x?q") (lit "../c") C59_B C59_R (Some (lit "u:p")) (lit "h") (Some (lit "8")) (lit "[::1]") ltac:(ds) eq_refl ltac:(apply host_of; ev) ltac:(rd) eq_refl eq_refl
  ltac:(right; split; left; reflexivity).
