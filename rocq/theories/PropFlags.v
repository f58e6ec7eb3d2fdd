(** * Property C44: formatting options (width, precision, fill, alignment).
    Specification: FlagsSpec.v, EditSpec.v.  Model: MFlags.v, MBuild.v, MEdit.v.
    [no_opts] are the options of "{}"; [padded o s t]: std pads and cuts [s] to [t] with the options [o]. *)
From Verif Require Import Base Chars Rfc3986 CompSpec RfcResolve EditSpec MValidate MTrusted MFormat MBuild MEdit MFlags FlagsSpec PFlags PInst.

(** Without width and precision the text is the one of the other theorems (C20, C22, C25). *)
Theorem C44_default : forall S o b abs i, fo_width o = None -> fo_precision o = None ->
  fmt_builder_with S o b abs = fmt_builder S b abs /\ text (mask_display_with no_opts i) = text (mask_display i).
Proof. intros S o b abs i Hw Hp. split; [exact (default_same S o b abs Hw Hp)|exact (f_equal text (mask_default i))]. Qed.
Print Assumptions C44_default.
(** A built reference shows the same text with all options if it has no IPv4 address given as such and,
    unless it is normalized, neither a password nor userinfo given as one string ... *)
Theorem C44_built_partial : forall S o b abs, option_free b -> text (fmt_builder_with S o b abs) = text (fmt_builder S b abs).
Proof. exact free_same. Qed.
Print Assumptions C44_built_partial.
(** ... but otherwise those parts are padded and cut (F14): the width can make the text invalid, and the
    precision can make it another URI. *)
Theorem C44_built_refuted : exists b x s, build UriSpec TIri b = Ok x /\
  text (built_display_with UriSpec (mkFO (Some 5%nat) None 32 None) x) = Ok s /\ is_ok (new UriSpec TReference s) = false.
Proof. exact built_invalid. Qed.
Print Assumptions C44_built_refuted.
Theorem C44_built_other_refuted : exists b x s, build UriSpec TIri b = Ok x /\
  text (built_display_with UriSpec (mkFO None (Some 1%nat) 32 None) x) = Ok s /\ new UriSpec TIri s = Ok s /\
  text (built_display UriSpec x) <> Ok s.
Proof. exact built_other. Qed.
Print Assumptions C44_built_other_refuted.
(** Exactly: without normalization, the text is that of the builder with those parts padded. *)
Theorem C44_built_exact : forall S o b abs, b_normalize b = false ->
  exists b', builder_padded o b b' /\ text (fmt_builder_with S o b abs) = text (fmt_builder S b' abs).
Proof. intros S o b abs Hn. destruct (builder_total o b) as [b' H]. exists b'. split; [exact H|exact (builder_eq S o b b' abs Hn H)]. Qed.
Print Assumptions C44_built_exact.
(** With normalization, an IPv4 address is padded in place. *)
Theorem C44_built_exact_v4 : forall S o b abs a x y z w s t, b_normalize b = true -> b_authority b = Some a ->
  ab_host a = HostIp (V4 x y z w) -> text (fmt_builder S b abs) = Ok s -> padded o (v4_text x y z w) t ->
  exists l r, s = l ++ v4_text x y z w ++ r /\ text (fmt_builder_with S o b abs) = Ok (l ++ t ++ r).
Proof. exact v4_normalized. Qed.
Print Assumptions C44_built_exact_v4.
(** The password mask shows fill characters in the place of the password, up to the width ... *)
Theorem C44_mask_exact : forall o S i C user pw h p t, dissects S i C (Some (user_password user pw)) h p -> ~ In 58 user ->
  padded o [] t ->
  let C' := with_authority C (Some (user_password user t)) h p in
  text (mask_display_with o i) = Ok (recompose (c_s C') (c_a C') (c_p C') (c_q C') (c_f C')).
Proof. exact mask_text. Qed.
Print Assumptions C44_mask_exact.
(** ... or after a user name without ":" ... *)
Theorem C44_mask_exact_user : forall o S i C u h p t, dissects S i C (Some u) h p -> ~ In 58 u -> padded o [] t ->
  let C' := with_authority C (Some (u ++ t)) h p in
  text (mask_display_with o i) = Ok (recompose (c_s C') (c_a C') (c_p C') (c_q C') (c_f C')).
Proof. exact no_password_text. Qed.
Print Assumptions C44_mask_exact_user.
(** ... so the text can be invalid ... *)
Theorem C44_mask_refuted : exists i s, new UriSpec TIri i = Ok i /\
  text (mask_display_with (mkFO (Some 5%nat) None 32 None) i) = Ok s /\ is_ok (new UriSpec TReference s) = false.
Proof. exact masked_invalid. Qed.
Print Assumptions C44_mask_refuted.
(** ... but whatever the options are, it does not depend on the password. *)
Theorem C44_mask_hides : forall o S i i' C C' user pw pw' h p, ~ In 58 user ->
  dissects S i C (Some (user_password user pw)) h p -> dissects S i' C' (Some (user_password user pw')) h p ->
  c_s C = c_s C' -> c_p C = c_p C' -> c_q C = c_q C' -> c_f C = c_f C' ->
  text (mask_display_with o i) = text (mask_display_with o i').
Proof. exact mask_hides. Qed.
Print Assumptions C44_mask_hides.
(** A replacement is displayed with the options, as its own [Display] sees fit. *)
Theorem C44_replace : forall A o S i C user pw h p (f : str -> fopts -> W A) a,
  dissects S i C (Some (user_password user pw)) h p -> ~ In 58 user -> snd (f pw o) = Ret a ->
  let C' := with_authority C (Some (user_password user (concat (fst (f pw o))))) h p in
  text (replaced_display_with o i f) = Ok (recompose (c_s C') (c_a C') (c_p C') (c_q C') (c_f C')).
Proof. exact replace_text. Qed.
Print Assumptions C44_replace.

(** The model of padding is std's. *)
Theorem C44_pad : forall o s t, text (pad o s) = Ok t <-> padded o s t.
Proof. intros o s t. symmetry. exact (pad_padded o s t). Qed.
Print Assumptions C44_pad.
Example C44_ex :
  text (pad (mkFO (Some 6%nat) (Some 3%nat) 42 (Some ACenter)) (lit "abcd")) = Ok (lit "*abc**") /\
  text (mask_display_with (mkFO (Some 3%nat) None 42 None) (lit "http://u:secret@h/")) = Ok (lit "http://u:***@h/") /\
  text (mask_display_with (mkFO (Some 3%nat) None 42 None) (lit "http://u@h/")) = Ok (lit "http://u***@h/") /\
  text (mask_display_with (mkFO (Some 3%nat) None 42 None) (lit "http://h/")) = Ok (lit "http://h/") /\
  text (fmt_builder_with UriSpec (mkFO None (Some 1%nat) 42 None) (b_steps [OpScheme (lit "http"); OpUserinfo (UiUserPass (lit "u") (Some (lit "pw"))); OpHost (lit "host")]) true)
    = Ok (lit "http://u:p@host").
Proof. vm_compute. auto 10. Qed.
Example C44_applies : option_free (b_steps [OpScheme (lit "http"); OpUserinfo (UiUserPass (lit "u") None); OpHost (lit "host")]) /\
  padded (mkFO (Some 5%nat) None 42 None) (lit "pw") (lit "pw***").
Proof.
  split.
  - intros a [= <-]. split; [discriminate|]. right. right. exists (lit "u"). reflexivity.
  - exists 0%nat, 3%nat. vm_compute. auto.
Qed.

(** The theorems applied to concrete cases. *)
Definition C44_C : comps := mkC (Some (lit "http")) (Some (lit "u:pw@h")) (lit "/x") None None.
Example C44_padded : padded (mkFO (Some 3%nat) None 42 None) [] (lit "***").
Proof. exists 0%nat, 3%nat. vm_compute. auto. Qed.
Example C44_built_exact_v4_instance := C44_built_exact_v4 UriSpec (mkFO (Some 9%nat) None 42 None)
  (b_steps [OpScheme (lit "http"); OpIpAddress (V4 1 2 3 4); OpNormalize]) true (mkAB (HostIp (V4 1 2 3 4)) PortEmpty UiNone) 1 2 3 4
  (lit "http://1.2.3.4") (lit "1.2.3.4**") eq_refl eq_refl eq_refl ltac:(ev) ltac:(exists 0%nat, 2%nat; vm_compute; auto).
Example C44_mask_exact_instance := C44_mask_exact (mkFO (Some 3%nat) None 42 None) UriSpec (lit "http://u:pw@h/x") C44_C
  (lit "u") (lit "pw") (lit "h") None (lit "***") ltac:(ds) ltac:(out) C44_padded.
Example C44_mask_exact_user_instance := C44_mask_exact_user (mkFO (Some 3%nat) None 42 None) UriSpec (lit "http://u@h/x")
  (mkC (Some (lit "http")) (Some (lit "u@h")) (lit "/x") None None) (lit "u") (lit "h") None (lit "***") ltac:(ds) ltac:(out) C44_padded.
Example C44_mask_hides_instance := C44_mask_hides (mkFO (Some 3%nat) None 42 None) UriSpec (lit "http://u:pw@h/x") (lit "http://u:other@h/x") C44_C
  (mkC (Some (lit "http")) (Some (lit "u:other@h")) (lit "/x") None None) (lit "u") (lit "pw") (lit "other") (lit "h") None ltac:(out) ltac:(ds) ltac:(ds) eq_refl eq_refl eq_refl eq_refl.
Example C44_replace_instance := C44_replace unit (mkFO (Some 3%nat) None 42 None) UriSpec (lit "http://u:pw@h/x") C44_C
  (lit "u") (lit "pw") (lit "h") None (fun pw o => pad o pw) tt ltac:(ds) ltac:(out) ltac:(ev).
