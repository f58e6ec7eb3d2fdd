(** * C49: editing commutes with normalization and with the mapping to URIs. *)
From Verif Require Import Base Chars Rfc3986 Utf8 CompSpec PctSpec RfcResolve NormSpec EncodeSpec EditSpec MValidate MTrusted MFormat MWriters MPct MPath MNormalize MEdit PEditNorm PInst.
Open Scope string_scope. Open Scope N_scope. Open Scope list_scope.

(** [norm keep]: [normalize], or [normalize_but_preserve_authorityless_relative_path] with [keep]. *)
Definition C49_norm (keep : bool) (i : str) := if keep then normalize_preserve i else normalize i.

(** Masking the password and then normalizing is normalizing and then masking. *)
Theorem C49_mask_normalize : forall S keep i, IRI S i -> exists n out j m k, C49_norm keep i = Ok n /\ display S n = Ok out /\
  text (mask_display i) = Ok j /\ C49_norm keep j = Ok m /\ display S m = Ok k /\ text (mask_display out) = Ok k.
Proof. exact mask_normalize. Qed.
Print Assumptions C49_mask_normalize.
(** Replacing the password by [x]: in the normal form it is replaced by the normal form of [x]. *)
Theorem C49_replace_normalize : forall S keep i C user pw h o x t, dissects S i C (Some (user_password user pw)) h o -> ~ In 58 user ->
  defined (c_s C) = true -> userinfo S x -> pct_normal S x t ->
  exists n out j m k, C49_norm keep i = Ok n /\ display S n = Ok out /\
  text (replaced_display i (fun _ => write x)) = Ok j /\ C49_norm keep j = Ok m /\ display S m = Ok k /\ text (replaced_display out (fun _ => write t)) = Ok k.
Proof. exact replace_normalize. Qed.
Print Assumptions C49_replace_normalize.
(** Removing a password. *)
Theorem C49_remove_normalize : forall debug S keep i C user pw h o, dissects S i C (Some (user_password user pw)) h o -> ~ In 58 user ->
  defined (c_s C) = true ->
  exists n out j m k, C49_norm keep i = Ok n /\ display S n = Ok out /\
  remove_password_inline debug S TIri i = Ok j /\ C49_norm keep j = Ok m /\ display S m = Ok k /\ remove_password_inline debug S TIri out = Ok k.
Proof. exact remove_normalize. Qed.
Print Assumptions C49_remove_normalize.
(** Setting or removing the fragment. *)
Theorem C49_fragment_normalize : forall debug S keep i f t, IRI S i -> opt_in (fragment S) f -> opt_rel (pct_normal S) f t ->
  exists n out j m k, C49_norm keep i = Ok n /\ display S n = Ok out /\
  set_fragment debug S TIri i f = Ok j /\ C49_norm keep j = Ok m /\ display S m = Ok k /\ set_fragment debug S TIri out t = Ok k.
Proof. exact fragment_normalize. Qed.
Print Assumptions C49_fragment_normalize.
(** The same for the mapping to URIs, for every type. *)
Theorem C49_mask_uri : forall t i, editable t = true -> new IriSpec t i = Ok i ->
  exists j, text (mask_display i) = Ok j /\ text (mask_display (to_uri i)) = Ok (to_uri j).
Proof. exact mask_uri. Qed.
Print Assumptions C49_mask_uri.
Theorem C49_remove_uri : forall debug t i C user pw h o, editable t = true -> new IriSpec t i = Ok i ->
  dissects IriSpec i C (Some (user_password user pw)) h o -> ~ In 58 user ->
  exists j, remove_password_inline debug IriSpec t i = Ok j /\ remove_password_inline debug UriSpec t (to_uri i) = Ok (to_uri j).
Proof. exact remove_uri. Qed.
Print Assumptions C49_remove_uri.
Theorem C49_fragment_uri : forall debug t i f, fragmentable t = true -> new IriSpec t i = Ok i -> opt_in (fragment IriSpec) f ->
  exists j, set_fragment debug IriSpec t i f = Ok j /\ set_fragment debug UriSpec t (to_uri i) (omap f) = Ok (to_uri j).
Proof. exact fragment_uri. Qed.
Print Assumptions C49_fragment_uri.
(** Replacing the host by [g]: in the normal form it is replaced by the normal form of [g].  (In debug
    builds an IRI with a fragment makes [replace_host] panic, F6.) *)
Theorem C49_host_normalize : forall debug S keep i C u h o g t, dissects S i C u h o -> defined (c_s C) = true -> host S g -> host_normal S g t ->
  (debug = false \/ c_f C = None \/ c_f C = Some []) ->
  exists n out j m k, C49_norm keep i = Ok n /\ display S n = Ok out /\
  replace_host debug true S TIri i g false = Ok (Some g, j) /\ C49_norm keep j = Ok m /\ display S m = Ok k /\ replace_host debug true S TIri out t false = Ok (Some t, k).
Proof. exact host_normalize. Qed.
Print Assumptions C49_host_normalize.
Theorem C49_host_uri : forall debug t i C u h o g, editable t = true -> new IriSpec t i = Ok i -> dissects IriSpec i C u h o -> host IriSpec g ->
  (debug = false \/ t <> TIri \/ c_f C = None \/ c_f C = Some []) ->
  exists j, replace_host debug true IriSpec t i g false = Ok (Some g, j) /\ replace_host debug true UriSpec t (to_uri i) (to_uri g) false = Ok (Some (to_uri g), to_uri j).
Proof. exact host_uri_edit. Qed.
Print Assumptions C49_host_uri.
(** [replace_host_reg_name] does not commute: a host can become an IP address by normalization. *)
Example C49_reg_name :
  let i := lit "http://%31.2.3.4/" in let nrm x := do n <- normalize x ; display UriSpec n in
  (do (_, j) <- replace_host true true UriSpec TIri i (lit "H") true ; nrm j) = Ok (lit "http://h/") /\
  (do j <- nrm i ; do (_, k) <- replace_host true true UriSpec TIri j (lit "h") true ; Ok k) = Ok (lit "http://1.2.3.4/").
Proof. vm_compute. auto. Qed.
Example C49_host_ex :
  let i := lit "HTTP://u@H:/a/../b" in let nrm x := do n <- normalize x ; display IriSpec n in
  (do (_, j) <- replace_host true true IriSpec TIri i (lit "%41" ++ [233]) false ; nrm j) = Ok (lit "http://u@A" ++ [233] ++ lit "/b") /\
  (do j <- nrm i ; do (_, k) <- replace_host true true IriSpec TIri j (lit "A" ++ [233]) false ; Ok k) = Ok (lit "http://u@A" ++ [233] ++ lit "/b").
Proof. vm_compute. auto. Qed.
Example C49_ex :
  let i := lit "HTTP://%75s%65r:%3a" ++ [233] ++ lit "@H%6fST:/a/../%c3%a9#%7e" in
  let nrm x := do n <- normalize x ; display IriSpec n in
  new IriSpec TIri i = Ok i /\
  (do j <- text (mask_display i) ; nrm j) = Ok (lit "http://user:@host/" ++ [233] ++ lit "#~") /\
  (do j <- nrm i ; text (mask_display j)) = Ok (lit "http://user:@host/" ++ [233] ++ lit "#~") /\
  (do j <- remove_password_inline true IriSpec TIri i ; nrm j) = Ok (lit "http://user@host/" ++ [233] ++ lit "#~") /\
  (do j <- set_fragment true IriSpec TIri i (Some (lit "%66")) ; nrm j) = Ok (lit "http://user:%3A" ++ [233] ++ lit "@host/" ++ [233] ++ lit "#f") /\
  text (mask_display (to_uri i)) = Ok (lit "HTTP://%75s%65r:@H%6fST:/a/../%c3%a9#%7e").
Proof. vm_compute. auto 10. Qed.

(** The theorems applied to concrete cases. *)
Definition C49_C : comps := mkC (Some (lit "HTTP")) (Some (lit "%75:p%77@H:8")) (lit "/a/../b") None None.
Definition C49_i : str := lit "HTTP://%75:p%77@H:8/a/../b".
Example C49_mask_instance := C49_mask_normalize UriSpec false C49_i ltac:(apply iri_of; ev).
Example C49_replace_instance := C49_replace_normalize UriSpec false C49_i C49_C (lit "%75") (lit "p%77") (lit "H") (Some (lit "8")) (lit "x") (lit "x")
  ltac:(ds) ltac:(out) eq_refl ltac:(apply userinfo_of; ev) ltac:(apply plain_normal; out).
Example C49_remove_instance := C49_remove_normalize true UriSpec false C49_i C49_C (lit "%75") (lit "p%77") (lit "H") (Some (lit "8")) ltac:(ds) ltac:(out) eq_refl.
Example C49_fragment_instance := C49_fragment_normalize true UriSpec false C49_i (Some (lit "f")) (Some (lit "f")) ltac:(apply iri_of; ev) ltac:(apply fragment_of; ev) ltac:(apply plain_normal; out).
Example C49_mask_uri_instance := C49_mask_uri TIri C49_i eq_refl ltac:(ev).
Example C49_remove_uri_instance := C49_remove_uri true TIri C49_i C49_C (lit "%75") (lit "p%77") (lit "H") (Some (lit "8")) eq_refl ltac:(ev) ltac:(ds) ltac:(out).
Example C49_fragment_uri_instance := C49_fragment_uri true TIri C49_i (Some (lit "f" ++ [233])) eq_refl ltac:(ev) ltac:(apply fragment_of; ev).
Example C49_host_uri_instance := C49_host_uri true TIri C49_i C49_C (Some (lit "%75:p%77")) (lit "H") (Some (lit "8")) (lit "g" ++ [233]) eq_refl ltac:(ev) ltac:(ds) ltac:(apply host_of; ev) ltac:(right; right; left; reflexivity).
