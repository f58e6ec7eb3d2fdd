(** * The calls of CallSpec.v as calls of the modelled functions.  Each line names the definition, which
    cites the code.  Memory is available (the calls that report a failed allocation are in C23, C34). *)
From Verif Require Import Base Chars Rfc3986 Utf8 CallSpec MValidate MTrusted MTypes MFormat MWriters MPct MPath MNormalize MEdit MEncode.

Definition of_kind (t : kind) : ty :=
  match t with KAbsolute => TAbsolute | KIri => TIri | KReference => TReference | KRelative => TRelative end.
Definition of_mode (m : norm_mode) : NormalizationMode := match m with NmNone => MNone | NmDefault => MDefault | NmPreserve => MPreserve end.
Definition of_check (m : check_mode) : NormalizednessCheckMode :=
  match m with CmDefault => CkDefault | CmRfc3986 => CkRfc3986 | CmPreserve => CkPreserve end.
Definition is_panic {E A} (r : res E A) : bool := match r with Panic => true | _ => false end.

(** Does the call panic?  MTrusted.v, MTypes.v, MNormalize.v, MEdit.v, MEncode.v
    (src/types/generic/{absolute,normal,reference,relative}.rs, src/types/iri.rs, src/normalize.rs,
    src/resolve.rs, src/mask_password.rs, src/convert.rs, src/percent_encode.rs). *)
Definition call_panics (debug : bool) (S : Spec) (k : kind) (i : str) (c : call) : bool :=
  let t := of_kind k in
  let norm (keep : bool) := if keep then normalize_preserve i else normalize i in
  match c with
  | CScheme => is_panic (scheme_str t i)
  | CAuthority => is_panic (authority_str t i)
  | CAuthorityComponents =>
      match authority_components i with
      | None => false
      | Some a => is_panic (ac_userinfo a) || is_panic (ac_host a) || is_panic (ac_reg_name a) || is_panic (ac_port a)
      end
  | CPathStr => is_panic (path_str t i)
  | CQueryStr => is_panic (query_str debug t i)
  | CQueryTyped => is_panic (query_ri debug S t i)
  | CFragmentStr => is_panic (fragment_str t i)
  | CFragmentTyped => is_panic (fragment_ri debug S t i)
  | CToIri => is_panic (to_iri debug S i)
  | CToRelative => is_panic (to_relative_iri debug S i)
  | CIntoIri => is_panic (into_iri debug S i)
  | CIntoRelative => is_panic (into_relative_iri debug S i)
  | CToAbsolute => is_panic (to_absolute debug S i)
  | CToAbsoluteAndFragment => is_panic (to_absolute_and_fragment debug S i)
  | CIntoAbsolute => is_panic (into_absolute debug S i)
  | CIntoAbsoluteAndFragment => is_panic (into_absolute_and_fragment debug S i)
  | CUpcast to => is_panic (upcast debug S (of_kind to) i)
  | CNormalize keep => is_panic (do n <- norm keep ; display S n)
  | CNormalizeOwned keep => is_panic (do n <- norm keep ; to_dedicated_string debug S t n)
  | CEnsureNormalizable keep => is_panic (do n <- norm keep ; ensure_rfc3986_normalizable n)
  | CIsNormalized m => is_panic (is_normalized S i (of_check m))
  | CResolve base m => is_panic (do n <- resolve base i ; display S (set_mode n (of_mode m)))
  | CResolveOwned base m => is_panic (do n <- resolve base i ; to_dedicated_string debug S TIri (set_mode n (of_mode m)))
  | CEnsureResolvable base m => is_panic (do n <- resolve base i ; ensure_rfc3986_normalizable (set_mode n (of_mode m)))
  | CResolverScheme => is_panic (resolver_scheme_str i)
  | CResolverAuthority => is_panic (resolver_authority_str i)
  | CResolverPath => is_panic (resolver_path_str i)
  | CResolverQuery => is_panic (resolver_query_str i)
  | CMask => is_panic (text (mask_display i)) || is_panic (text (angle_debug (mask_display i)))
  | CMaskOwned => is_panic (mask_to_dedicated_string debug true S t i)
  | CReplacePassword f => is_panic (text (replaced_display i (fun pw => (f pw, Ret tt))))
  | CRemovePassword => is_panic (remove_password_inline debug S t i)
  | CRemoveNonemptyPassword => is_panic (remove_nonempty_password_inline debug S t i)
  | CReplaceHost h only => is_panic (replace_host debug true S t i h only)
  | CSetFragment f => is_panic (set_fragment debug S t i f)
  | CAsUri => is_panic (as_uri debug t i)
  | CAsIri => is_panic (as_iri debug t i)
  | CMapToUri => is_panic (text (MappedToUri i))
  | CMapToUriOwned => is_panic (mapped_to_dedicated_string debug t i)
  | CEncodeInline => is_panic (fst (try_encode_to_uri_inline true debug t i))
  | CEncodeIntoUri => is_panic (try_encode_into_uri true debug t i)
  | CIntoUri => is_panic (try_into_uri debug t i)
  | CDecode => is_panic (to_bytes (utf8s i)) || is_panic (into_bytes (utf8s i)) || is_panic (bytes_fragments (utf8s i)) || is_panic (into_string (utf8s i))
  end.
