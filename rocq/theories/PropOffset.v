(** * Property C77: no operation cuts a string inside a character or at a wrong place.
    The program counts bytes of UTF-8; slicing a string inside a character panics.  MOffset.v models it that
    way, with the portable searches ([None]) or with any memchr crate that keeps its contract ([Some]).
    Specification: CompSpec.v, NormSpec.v, RfcResolve.v, EditSpec.v, Utf8.v, SearchSpec.v.  Model: MOffset.v. *)
From Verif Require Import Base Chars Rfc3986 Utf8 CompSpec RfcResolve PctSpec NormSpec EditSpec SearchSpec
  MValidate MTrusted MFormat MWriters MSearch MPct MPath MNormalize MEdit MOffset PSearch POffset POffset6 POffset8 PInst.

(** The accessors of every reference return its RFC 3986 components. *)
Theorem C77_accessors : forall m S i C, match m with Some m => memchr_contract m | None => True end -> reads S i C ->
  o_to_major m i = Ok (c_s C, c_a C, c_p C, c_q C, c_f C) /\
  o_extract_scheme m i = Ok (c_s C) /\ o_extract_authority m i = Ok (c_a C) /\ o_extract_path m i = Ok (c_p C) /\
  o_extract_query m i = Ok (c_q C) /\ o_extract_fragment m i = Ok (c_f C).
Proof. exact (fun m S i C Hm => offset_accessors m Hm S i C). Qed.
Print Assumptions C77_accessors.
(** ... and so do those of an authority: userinfo, host, registered name, port. *)
Theorem C77_authority : forall m S i C u h p, match m with Some m => memchr_contract m | None => True end -> dissects S i C u h p ->
  exists g, o_authority_view m i = Ok (Some (u, h, g, p)) /\ (g = Some h \/ g = None) /\ (g = Some h <-> ~ IP_literal h /\ ~ IPv4address h).
Proof. exact (fun m S i C u h p Hm => offset_authority m Hm S i C u h p). Qed.
Print Assumptions C77_authority.
Theorem C77_no_authority : forall m S i C, match m with Some m => memchr_contract m | None => True end -> reads S i C -> c_a C = None ->
  o_authority_view m i = Ok None.
Proof. exact (fun m S i C Hm => offset_no_authority m Hm S i C). Qed.
Print Assumptions C77_no_authority.
(** Reference resolution is the transformation of RFC 3986, section 5.2.2. *)
Theorem C77_resolve : forall m S base ref B R, match m with Some m => memchr_contract m | None => True end ->
  reads S base B -> defined (c_s B) = true -> reads S ref R ->
  exists n T, o_resolve m base ref = Ok n /\ transform B R T /\ text (o_fmt_normalized m S n) = Ok (unparse T) /\
    exists b, o_ensure_rfc3986_normalizable m n = Ok b /\ (b = true <-> ~ fell_back T).
Proof. exact (fun m S base ref B R Hm => offset_resolve m Hm S base ref B R). Qed.
Print Assumptions C77_resolve.
(** Normalization computes the normal form. *)
Theorem C77_normalize : forall m S (keep : bool) i C, match m with Some m => memchr_contract m | None => True end ->
  reads S i C -> defined (c_s C) = true ->
  exists n T, o_normalize m keep i = Ok n /\ comps_normal S keep C T /\ text (o_fmt_normalized m S n) = Ok (unparse T) /\
    exists T0 b, comps_normal S false C T0 /\ o_ensure_rfc3986_normalizable m n = Ok b /\ (b = true <-> ~ fell_back T0).
Proof. exact (fun m S keep i C Hm => offset_normalize m Hm S keep i C). Qed.
Print Assumptions C77_normalize.

(** On every string whatsoever, valid or not, the functions below do with byte offsets what MTrusted.v and
    MEdit.v do with character offsets, panics, failures and the pieces of the output included. *)
Theorem C77_absolute_relative : forall m debug i, match m with Some m => memchr_contract m | None => True end ->
  o_extract_scheme_absolute m i = extract_scheme_absolute i /\ o_extract_authority_absolute m i = extract_authority_absolute i /\
  o_extract_path_absolute m i = extract_path_absolute i /\ o_extract_query_absolute_iri m debug i = extract_query_absolute_iri debug i /\
  o_extract_authority_relative m i = Ok (extract_authority_relative i) /\ o_extract_path_relative m i = Ok (extract_path_relative i).
Proof. exact (fun m debug i Hm => offset_absolute m Hm debug i). Qed.
Print Assumptions C77_absolute_relative.
Theorem C77_password : forall m debug alloc S t i, match m with Some m => memchr_contract m | None => True end ->
  o_mask_display m i = mask_display i /\ o_mask_to_dedicated_string m debug alloc S t i = mask_to_dedicated_string debug alloc S t i /\
  (forall A (f : str -> W A), o_replaced_display m i f = replaced_display i f) /\
  o_remove_password_inline m debug S t i = remove_password_inline debug S t i /\
  o_remove_nonempty_password_inline m debug S t i = remove_nonempty_password_inline debug S t i.
Proof. exact (fun m debug alloc S t i Hm => offset_password m Hm debug alloc S t i). Qed.
Print Assumptions C77_password.
Theorem C77_host : forall m debug alloc S t i h only, match m with Some m => memchr_contract m | None => True end ->
  o_try_replace_host_impl m debug alloc S t i h only = try_replace_host_impl debug alloc S t i h only.
Proof. exact (fun m debug alloc S t i h only Hm => offset_host m Hm debug alloc S t i h only). Qed.
Print Assumptions C77_host.
Theorem C77_fragment : forall m debug S i f, match m with Some m => memchr_contract m | None => True end ->
  o_raw_set_fragment i f = Ok (raw_set_fragment i f) /\ o_split_fragment m i = Ok (split_fragment i) /\
  o_split_fragment_owned m i = split_fragment_owned i /\ o_to_absolute m debug S i = to_absolute debug S i.
Proof. exact (fun m debug S i f Hm => offset_fragment m Hm debug S i f). Qed.
Print Assumptions C77_fragment.

(** Percent-encoding normalization of a component, and of a host with ASCII characters only (the loops cut
    the string three bytes at a time, also after an invalid UTF-8 sequence). *)
Theorem C77_percent : forall m S s, match m with Some m => memchr_contract m | None => True end -> pct_wf s ->
  exists t, pct_normal S s t /\ text (o_PctCaseNormalized m S s) = Ok t.
Proof. exact (fun m S s Hm => offset_percent m Hm S s). Qed.
Print Assumptions C77_percent.
Theorem C77_host_case : forall m S h, match m with Some m => memchr_contract m | None => True end -> pct_wf h ->
  exists b, o_is_ascii_only_host h = Ok b /\ (b = true <-> ascii_only h) /\
    (ascii_only h -> exists t, pct_normal S h t /\ text (o_NormalizedAsciiOnlyHost m h) = Ok (lower_raw t)).
Proof. exact (fun m S h Hm => offset_host_only m Hm S h). Qed.
Print Assumptions C77_host_case.
(** [is_normalized] and its variants, whose meaning is C17. *)
Theorem C77_is_normalized : forall m S i mode, match m with Some m => memchr_contract m | None => True end -> IRI S i -> o_is_normalized m S i mode = is_normalized S i mode.
Proof. exact (fun m S i mode Hm => offset_is_normalized m Hm S i mode). Qed.
Print Assumptions C77_is_normalized.

(** Instances: [é] takes two bytes and [日] three. *)
Definition ee : str := [233].
Definition hi : str := [26085].
Definition iri77 : str := lit "http://" ++ ee ++ lit ":" ++ hi ++ lit "@" ++ hi ++ lit ".jp:80/" ++ ee ++ lit "/../" ++ hi ++ lit "?" ++ ee ++ lit "#" ++ hi.
Definition crate77 : memchr_crate :=
  {| memchr := fun a => position (is1 a); memchr2 := fun a b => position (is2 a b);
     memchr3 := fun a b c => position (is3 a b c); memrchr := fun a => rposition (is1 a);
     memrchr2 := fun a b => rposition (is2 a b) |}.
Example C77_applies : memchr_contract crate77 /\ exists C, reads IriSpec iri77 C /\ defined (c_s C) = true /\
  dissects IriSpec iri77 C (Some (ee ++ lit ":" ++ hi)) (hi ++ lit ".jp") (Some (lit "80")).
Proof.
  split; [exact simple_contract|]. exists (mkC (Some (lit "http")) (Some (ee ++ lit ":" ++ hi ++ lit "@" ++ hi ++ lit ".jp:80")) (lit "/" ++ ee ++ lit "/../" ++ hi) (Some ee) (Some hi)).
  assert (R : reads IriSpec iri77 (mkC (Some (lit "http")) (Some (ee ++ lit ":" ++ hi ++ lit "@" ++ hi ++ lit ".jp:80")) (lit "/" ++ ee ++ lit "/../" ++ hi) (Some ee) (Some hi))) by rd.
  split; [exact R|]. split; [reflexivity|]. split; [exact R|]. split; [reflexivity|]. split; [|split].
  - apply PAuth.validate_userinfo_iff. vm_compute. reflexivity.
  - apply PAuth.validate_host_iff. vm_compute. reflexivity.
  - apply PErr.validate_port_iff. vm_compute. reflexivity.
Qed.
(** The offsets differ from the character counts, slicing at the latter would panic. *)
Example C77_ex_offsets : o_password_range_to_hide None iri77 = Ok (Some (10, 13)%nat) /\ password_range_to_hide iri77 = Ok (Some (9, 10)%nat) /\
  str_to iri77 8 = Panic /\ str_from iri77 12 = Panic.
Proof. vm_compute. repeat split. Qed.
Example C77_ex : forall m, m = None \/ m = Some crate77 ->
  o_authority_view m iri77 = Ok (Some (Some (ee ++ lit ":" ++ hi), hi ++ lit ".jp", Some (hi ++ lit ".jp"), Some (lit "80"))) /\
  match o_normalize m false iri77 with Ok n => text (o_fmt_normalized m IriSpec n) | _ => Panic end =
    Ok (lit "http://" ++ ee ++ lit ":" ++ hi ++ lit "@" ++ hi ++ lit ".jp:80/" ++ hi ++ lit "?" ++ ee ++ lit "#" ++ hi) /\
  match o_resolve m iri77 (lit "../" ++ hi ++ lit "/." ++ lit "?" ++ hi) with Ok n => text (o_fmt_normalized m IriSpec n) | _ => Panic end =
    Ok (lit "http://" ++ ee ++ lit ":" ++ hi ++ lit "@" ++ hi ++ lit ".jp:80/" ++ hi ++ lit "/?" ++ hi) /\
  o_remove_password_inline m true IriSpec TIri iri77 = Ok (lit "http://" ++ ee ++ lit "@" ++ hi ++ lit ".jp:80/" ++ ee ++ lit "/../" ++ hi ++ lit "?" ++ ee ++ lit "#" ++ hi) /\
  o_split_fragment_owned m iri77 = Ok (lit "http://" ++ ee ++ lit ":" ++ hi ++ lit "@" ++ hi ++ lit ".jp:80/" ++ ee ++ lit "/../" ++ hi ++ lit "?" ++ ee, Some hi) /\
  o_try_replace_host_impl m true true IriSpec TReference iri77 (hi ++ hi) false =
    Ok (Ok (Some (hi ++ hi)), lit "http://" ++ ee ++ lit ":" ++ hi ++ lit "@" ++ hi ++ hi ++ lit ":80/" ++ ee ++ lit "/../" ++ hi ++ lit "?" ++ ee ++ lit "#" ++ hi).
Proof. intros m [-> | ->]; vm_compute; repeat split. Qed.
Definition pct77 : str := ee ++ lit "%e6%97%a5%E6%97" ++ hi ++ lit "%ed%a0%80%7E%c3" ++ ee ++ lit "%2f".
Example C77_ex_percent : pct_wf pct77 /\ forall m, m = None \/ m = Some crate77 ->
  text (o_PctCaseNormalized m IriSpec pct77) = Ok (ee ++ hi ++ lit "%E6%97" ++ hi ++ lit "%ED%A0%80~%C3" ++ ee ++ lit "%2F") /\
  o_is_ascii_only_host pct77 = Ok false /\ o_is_ascii_only_host (lit "A%4a%7E") = Ok true /\
  text (o_NormalizedAsciiOnlyHost m (lit "A%4a%7E%3A")) = Ok (lit "aj~%3A") /\
  o_is_normalized m IriSpec iri77 CkDefault = Ok false /\
  o_is_normalized m IriSpec (lit "http://" ++ hi ++ lit "%2F/" ++ ee) CkRfc3986 = Ok true.
Proof.
  split; [apply PPct.pct_wf_scan; vm_compute; reflexivity|]. intros m [-> | ->]; vm_compute; repeat split.
Qed.
Example C77_is_normalized_applies : IRI IriSpec iri77 /\ IRI IriSpec (lit "http://" ++ hi ++ lit "%2F/" ++ ee).
Proof. split; apply iri_of; vm_compute; reflexivity. Qed.
