(** * Independent specification: the calls a user can make on a validated string, and the complete list of
    those that panic.  Does not mention the code. *)
From Verif Require Import Base Chars Rfc3986 CompSpec RfcResolve NormSpec EditSpec HistSpec.

Inductive kind := KAbsolute | KIri | KReference | KRelative.
Inductive norm_mode := NmNone | NmDefault | NmPreserve.
Inductive check_mode := CmDefault | CmRfc3986 | CmPreserve.
(** The methods (with their arguments) of the borrowed and owned types. *)
Inductive call :=
| CScheme | CAuthority | CAuthorityComponents | CPathStr | CQueryStr | CQueryTyped | CFragmentStr | CFragmentTyped
| CToIri | CToRelative | CIntoIri | CIntoRelative
| CToAbsolute | CToAbsoluteAndFragment | CIntoAbsolute | CIntoAbsoluteAndFragment
| CUpcast (to : kind)
| CNormalize (keep : bool) | CNormalizeOwned (keep : bool) | CEnsureNormalizable (keep : bool) | CIsNormalized (m : check_mode)
| CResolve (base : str) (m : norm_mode) | CResolveOwned (base : str) (m : norm_mode) | CEnsureResolvable (base : str) (m : norm_mode)
| CResolverScheme | CResolverAuthority | CResolverPath | CResolverQuery
| CMask | CMaskOwned | CReplacePassword (f : str -> list str)
| CRemovePassword | CRemoveNonemptyPassword | CReplaceHost (h : str) (only_reg_name : bool)
| CSetFragment (f : option str)
| CAsUri | CAsIri | CMapToUri | CMapToUriOwned | CEncodeInline | CEncodeIntoUri | CIntoUri
| CDecode.

(** Which type has which method, with arguments of the right type.  ([CResolve] is called on the reference,
    with the base as argument: an absolute IRI or anything else that is an IRI; the resolver's accessors on the base.) *)
Definition has_call (S : Spec) (t : kind) (c : call) : Prop :=
  match c with
  | CScheme => t <> KRelative
  | CFragmentStr | CFragmentTyped => t <> KAbsolute
  | CToIri | CToRelative | CIntoIri | CIntoRelative => t = KReference
  | CToAbsolute | CToAbsoluteAndFragment | CIntoAbsolute | CIntoAbsoluteAndFragment => t = KIri
  | CUpcast to => In (t, to) [(KAbsolute, KIri); (KAbsolute, KReference); (KRelative, KReference); (KIri, KReference)]
  | CNormalize _ | CNormalizeOwned _ | CEnsureNormalizable _ | CIsNormalized _ => t = KAbsolute \/ t = KIri
  | CResolve base _ | CResolveOwned base _ | CEnsureResolvable base _ => IRI S base
  | CResolverScheme | CResolverAuthority | CResolverPath | CResolverQuery => t = KAbsolute
  | CSetFragment f => t <> KAbsolute /\ opt_in (fragment S) f
  | CAsUri | CMapToUri | CMapToUriOwned | CEncodeInline | CEncodeIntoUri | CIntoUri => S = IriSpec
  | CAsIri => S = UriSpec
  | _ => True
  end.

(** The calls that panic ([debug]: debug assertions are enabled), in terms of the components. *)
Inductive panicking (debug : bool) (S : Spec) (t : kind) (C : comps) : call -> Prop :=
(** the query of an absolute IRI that was accepted with an empty fragment (F1) *)
| p_query_str : debug = true -> t = KAbsolute -> c_f C = Some [] -> c_q C = None -> panicking debug S t C CQueryStr
| p_query : debug = true -> t = KAbsolute -> c_f C = Some [] -> panicking debug S t C CQueryTyped
(** [remove_password_inline] of a userinfo without ":" (F5): empty, or the last character (or byte) is cut *)
| p_remove_empty : forall h o, debug = true -> parts S C (Some []) h o -> IP_literal h -> panicking debug S t C CRemovePassword
| p_remove_nonascii : forall u c h o, parts S C (Some (u ++ [c])) h o -> ~ In 58 (u ++ [c]) -> 128 <= c ->
    panicking debug S t C CRemovePassword
| p_remove_triplet : forall u c h o, debug = true -> parts S C (Some (u ++ [c])) h o -> ~ In 58 (u ++ [c]) -> c < 128 ->
    ~ userinfo S u -> panicking debug S t C CRemovePassword
(** [replace_host] of an IRI with a non-empty fragment (F6) *)
| p_replace_host : forall h only x f, debug = true -> t = KIri -> c_f C = Some (x :: f) -> panicking debug S t C (CReplaceHost h only).

(** The calls that, without debug assertions, return a string that is not of its type. *)
Inductive damaging (S : Spec) (t : kind) (C : comps) : call -> Prop :=
| d_query : forall q, t = KAbsolute -> c_f C = Some [] -> c_q C = Some q -> damaging S t C CQueryTyped
| d_remove_empty : forall h o, parts S C (Some []) h o -> IP_literal h -> damaging S t C CRemovePassword
| d_remove_triplet : forall u c h o, parts S C (Some (u ++ [c])) h o -> ~ In 58 (u ++ [c]) -> c < 128 ->
    ~ userinfo S u -> damaging S t C CRemovePassword.
