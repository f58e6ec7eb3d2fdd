(** * Byte-level model of the whole interface: the calls of CallSpec.v and client programs, as in MCalls.v and
    MProg.v, on top of the byte-level functions (MOffset.v, MBytes.v, MBytes2.v, MBytes3.v).  [None]: the portable
    searches; [Some m]: those of the memchr crate [m]. *)
From Verif Require Import Base Chars Rfc3986 Utf8 CompSpec RfcResolve NormSpec CallSpec BuildSpec MValidate MTrusted MTypes MFormat MWriters MSearch MPct MPath MNormalize MEdit MEncode MBuild MCalls MProg
  MOffset MBytes MBytes2 MBytes3.

Section Bytes.
Variable m : option memchr_crate.
Variable debug : bool.
(** macros.rs:193-195 [new] and 250-262 [new_unchecked_justified] *)
Definition y_new (S : Spec) (t : ty) (s : str) : res ErrorKind str :=
  match b_validate m S t s with Ok _ => Ok s | Err e => Err e | Panic => Panic end.
Definition y_unchecked (S : Spec) (t : ty) (s : str) : may str :=
  if debug && negb (is_ok (b_validate m S t s)) then Panic else Ok s.
(** [debug_assert_eq!(Self::validate(buf), Ok(()))] *)
Definition y_debug_valid (S : Spec) (t : ty) (s : str) : may unit :=
  if debug && negb (is_ok (b_validate m S t s)) then Panic else Ok tt.
(** An optional string of type [t]. *)
Definition y_typed (S : Spec) (t : ty) (o : option str) : may (option str) :=
  match o with Some x => do x <- y_unchecked S t x ; Ok (Some x) | None => Ok None end.

(** ** Accessors: types/generic/reference.rs:250-544, normal.rs:547-730, absolute.rs:460-588, relative.rs:200-400 *)
Definition y_scheme_str (t : ty) (i : str) : may (option str) :=
  match t with
  | TAbsolute | TIri => do s <- o_extract_scheme_absolute m i ; Ok (Some s)
  | TReference => o_extract_scheme m i
  | _ => Ok None
  end.
Definition y_authority_str (t : ty) (i : str) : may (option str) :=
  match t with
  | TAbsolute | TIri => o_extract_authority_absolute m i
  | TReference => o_extract_authority m i
  | TRelative => o_extract_authority_relative m i
  | _ => Ok None
  end.
Definition y_path_str (t : ty) (i : str) : may str :=
  match t with
  | TAbsolute | TIri => o_extract_path_absolute m i
  | TReference => o_extract_path m i
  | TRelative => o_extract_path_relative m i
  | _ => Ok i
  end.
Definition y_query_str (t : ty) (i : str) : may (option str) :=
  match t with
  | TAbsolute => o_extract_query_absolute_iri m debug i
  | TIri | TReference | TRelative => o_extract_query m i
  | _ => Ok None
  end.
Definition y_fragment_str (t : ty) (i : str) : may (option str) :=
  match t with
  | TIri | TReference | TRelative => o_extract_fragment m i
  | _ => Ok None
  end.
Definition y_query_ri (S : Spec) (t : ty) (i : str) : may (option str) :=
  do q <- y_query_str t i ; y_typed S TQuery q.
Definition y_fragment_ri (S : Spec) (t : ty) (i : str) : may (option str) :=
  do f <- y_fragment_str t i ; y_typed S TFragment f.
(** components/authority.rs:63-70 [reg_name] *)
Definition y_ac_reg_name (a : AuthorityComponents) : may (option str) :=
  do h <- o_ac_host a ; do b <- b_is_host_reg_name m h ; Ok (if b : bool then Some h else None).
(** resolve.rs:118-123, 176-290 *)
Definition y_resolver_scheme_str (base : str) : may str :=
  do sp <- o_decompose m base ; do s <- o_sp_scheme_str sp base ; match s with Some x => Ok x | None => Panic end.
Definition y_resolver_authority_str (base : str) : may (option str) := do sp <- o_decompose m base ; o_sp_authority_str sp base.
Definition y_resolver_path_str (base : str) : may str := do sp <- o_decompose m base ; o_sp_path_str sp base.
Definition y_resolver_query_str (base : str) : may (option str) := do sp <- o_decompose m base ; o_sp_query_str sp base.

(** ** Conversions: types/generic/reference.rs:112-157, 586-625; normal.rs:154-206, 807-860 *)
Definition y_to_iri (S : Spec) (s : str) : may (str + str) :=
  do sch <- o_extract_scheme m s ;
  if is_some sch then do x <- y_unchecked S TIri s ; Ok (inl x) else do x <- y_unchecked S TRelative s ; Ok (inr x).
Definition y_to_relative_iri (S : Spec) (s : str) : may (str + str) :=
  do r <- y_to_iri S s ; Ok (match r with inl x => inr x | inr x => inl x end).
Definition y_into_iri (S : Spec) (s : str) : may (str + str) :=
  do sch <- o_extract_scheme m s ;
  if is_some sch then do x <- y_unchecked S TIri s ; Ok (inl x) else do x <- y_unchecked S TRelative s ; Ok (inr x).
Definition y_into_relative_iri (S : Spec) (s : str) : may (str + str) :=
  do r <- y_into_iri S s ; Ok (match r with inl x => inr x | inr x => inl x end).
Definition y_to_absolute_and_fragment (S : Spec) (s : str) : may (str * option str) :=
  do (p, f) <- o_split_fragment m s ; do p <- y_unchecked S TAbsolute p ; do f <- y_typed S TFragment f ; Ok (p, f).
Definition y_to_absolute (S : Spec) (s : str) : may str :=
  do (p, _) <- o_split_fragment m s ; do x <- str_to s (blen p) ; y_unchecked S TAbsolute x.
Definition y_into_absolute_and_fragment (S : Spec) (s : str) : may (str * option str) :=
  do (p, f) <- o_split_fragment_owned m s ; do p <- y_unchecked S TAbsolute p ; do f <- y_typed S TFragment f ; Ok (p, f).
Definition y_into_absolute (S : Spec) (s : str) : may str :=
  do p <- o_remove_fragment s ; y_unchecked S TAbsolute p.

(** ** Normalization and resolution: normalize.rs:641-690 *)
Definition y_display (S : Spec) (n : NormalizationInput) : may str := text (o_fmt_normalized m S n).
Definition y_to_dedicated_string (S : Spec) (t : ty) (n : NormalizationInput) : may str :=
  do s <- y_display S n ; y_unchecked S t s.

(** ** Edits *)
(** mask_password.rs:195-220; memory is available *)
Definition y_mask_to_dedicated_string (S : Spec) (t : ty) (i : str) : may str :=
  do r <- o_password_range_to_hide m i ;
  match r with
  | None => Ok i
  | Some (st, e) =>
      if Nat.ltb e st || Nat.ltb (blen i) (e - st) then Panic
      else do l <- str_to i st ; do r <- str_from i e ; y_unchecked S t (l ++ r)
  end.
(** absolute.rs:653-722, normal.rs:899-970, reference.rs:664-738, relative.rs:511-585 *)
Definition y_remove_password_inline (S : Spec) (t : ty) (i : str) : may str :=
  do r <- o_password_range_to_hide m i ;
  match r with
  | None => Ok i
  | Some (st, e) =>
      do separator_colon <- match st with O => Panic | Datatypes.S k => Ok k end ;
      do s <- o_drain i separator_colon e ;
      do _ <- y_debug_valid S t s ; Ok s
  end.
Definition y_remove_nonempty_password_inline (S : Spec) (t : ty) (i : str) : may str :=
  do r <- o_password_range_to_hide m i ;
  match r with
  | None => Ok i
  | Some (st, e) =>
      if negb (Nat.ltb st e) then Ok i
      else
        do _ <- (if debug && negb (match nth_error (utf8s i) (st - 1) with Some c => c =? COLON | None => false end)
                 then Panic else Ok tt) ;
        do s <- o_drain i st e ;
        do _ <- y_debug_valid S t s ; Ok s
  end.
(** types/generic.rs:67-103 [replace_domain_impl]; memory is available *)
Definition y_replace_domain_impl (S : Spec) (i new_host : str) (replace_only_reg_name : bool) : may (option (nat * nat) * str) :=
  do r <- o_from_iri_get_offset m i ;
  match r with
  | None => Ok (None, i)
  | Some (a, offset) =>
      do old_host <- o_ac_host a ;
      let hs := (offset + host_start a)%nat in
      if is_err (b_validate_host m S new_host) then Ok (None, i)
      else
        do reg <- (if replace_only_reg_name then b_is_host_reg_name m old_host else Ok true) ;
        if negb reg then Ok (None, i)
        else
          do s <- o_replace_range i hs (hs + blen old_host) new_host ;
          Ok (Some (hs, (hs + blen new_host)%nat), s)
  end.
(** absolute.rs:732-753, 778-781, 861-864 etc. [replace_host], [replace_host_reg_name] *)
Definition y_replace_host (S : Spec) (t : ty) (i new_host : str) (only : bool) : may (option str * str) :=
  do (r, s) <- y_replace_domain_impl S i new_host only ;
  do _ <- y_debug_valid S (replace_host_asserts t) s ;
  match r with
  | Some (a, b) => do h <- bslice s a b ; Ok (Some h, s)
  | None => Ok (None, s)
  end.
(** normal.rs:865-868, reference.rs:630-633, relative.rs:477-480 *)
Definition y_set_fragment (S : Spec) (t : ty) (i : str) (fragment : option str) : may str :=
  do s <- o_raw_set_fragment i fragment ; do _ <- y_debug_valid S t s ; Ok s.

(** ** Between URIs and IRIs: types/iri.rs:131-147, 213-225, 283-297, 319-334, types/uri.rs:58-95; [str::is_ascii] *)
Definition y_as_uri (t : ty) (s : str) : may (option str) :=
  if negb (forallb is_ascii (utf8s s)) then Ok None else do u <- y_unchecked UriSpec t s ; Ok (Some u).
Definition y_as_iri (t : ty) (s : str) : may str := y_unchecked IriSpec t s.
Definition y_mapped_to_dedicated_string (t : ty) (s : str) : may str :=
  do u <- text (b_MappedToUri s) ; y_unchecked UriSpec t u.
Definition y_encode_to_uri_inline (t : ty) (iri : str) : may str :=
  match try_percent_encode_iri_inline true iri with
  | (Ok _, s) => do _ <- y_debug_valid IriSpec t s ; Ok s
  | _ => Panic
  end.
Definition y_encode_into_uri (t : ty) (iri : str) : may str :=
  do s <- y_encode_to_uri_inline t iri ; y_unchecked UriSpec t s.
Definition y_try_into_uri (t : ty) (iri : str) : may (str + str) :=
  if negb (forallb is_ascii (utf8s iri)) then Ok (inr iri) else do u <- y_unchecked UriSpec t iri ; Ok (inl u).
(** decode.rs:193-195 *)
Definition y_into_string (b : list N) : may (option str) := do r <- b_into_bytes m b ; Ok (from_utf8 r).

(** Does the call panic? *)
Definition y_call_panics (S : Spec) (k : kind) (i : str) (c : call) : bool :=
  let t := of_kind k in
  match c with
  | CScheme => is_panic (y_scheme_str t i)
  | CAuthority => is_panic (y_authority_str t i)
  | CAuthorityComponents =>
      match o_authority_components m i with
      | Ok None => false
      | Ok (Some a) => is_panic (o_ac_userinfo a) || is_panic (o_ac_host a) || is_panic (y_ac_reg_name a) || is_panic (o_ac_port a)
      | _ => true
      end
  | CPathStr => is_panic (y_path_str t i)
  | CQueryStr => is_panic (y_query_str t i)
  | CQueryTyped => is_panic (y_query_ri S t i)
  | CFragmentStr => is_panic (y_fragment_str t i)
  | CFragmentTyped => is_panic (y_fragment_ri S t i)
  | CToIri => is_panic (y_to_iri S i)
  | CToRelative => is_panic (y_to_relative_iri S i)
  | CIntoIri => is_panic (y_into_iri S i)
  | CIntoRelative => is_panic (y_into_relative_iri S i)
  | CToAbsolute => is_panic (y_to_absolute S i)
  | CToAbsoluteAndFragment => is_panic (y_to_absolute_and_fragment S i)
  | CIntoAbsolute => is_panic (y_into_absolute S i)
  | CIntoAbsoluteAndFragment => is_panic (y_into_absolute_and_fragment S i)
  | CUpcast to => is_panic (y_unchecked S (of_kind to) i)
  | CNormalize keep => is_panic (do n <- o_normalize m keep i ; y_display S n)
  | CNormalizeOwned keep => is_panic (do n <- o_normalize m keep i ; y_to_dedicated_string S t n)
  | CEnsureNormalizable keep => is_panic (do n <- o_normalize m keep i ; o_ensure_rfc3986_normalizable m n)
  | CIsNormalized cm => is_panic (o_is_normalized m S i (of_check cm))
  | CResolve base nm => is_panic (do n <- o_resolve m base i ; y_display S (set_mode n (of_mode nm)))
  | CResolveOwned base nm => is_panic (do n <- o_resolve m base i ; y_to_dedicated_string S TIri (set_mode n (of_mode nm)))
  | CEnsureResolvable base nm => is_panic (do n <- o_resolve m base i ; o_ensure_rfc3986_normalizable m (set_mode n (of_mode nm)))
  | CResolverScheme => is_panic (y_resolver_scheme_str i)
  | CResolverAuthority => is_panic (y_resolver_authority_str i)
  | CResolverPath => is_panic (y_resolver_path_str i)
  | CResolverQuery => is_panic (y_resolver_query_str i)
  | CMask => is_panic (text (o_mask_display m i)) || is_panic (text (angle_debug (o_mask_display m i)))
  | CMaskOwned => is_panic (y_mask_to_dedicated_string S t i)
  | CReplacePassword f => is_panic (text (o_replaced_display m i (fun pw => (f pw, Ret tt))))
  | CRemovePassword => is_panic (y_remove_password_inline S t i)
  | CRemoveNonemptyPassword => is_panic (y_remove_nonempty_password_inline S t i)
  | CReplaceHost h only => is_panic (y_replace_host S t i h only)
  | CSetFragment f => is_panic (y_set_fragment S t i f)
  | CAsUri => is_panic (y_as_uri t i)
  | CAsIri => is_panic (y_as_iri t i)
  | CMapToUri => is_panic (text (b_MappedToUri i))
  | CMapToUriOwned => is_panic (y_mapped_to_dedicated_string t i)
  | CEncodeInline => is_panic (y_encode_to_uri_inline t i)
  | CEncodeIntoUri => is_panic (y_encode_into_uri t i)
  | CIntoUri => is_panic (y_try_into_uri t i)
  | CDecode => is_panic (b_to_bytes m (utf8s i)) || is_panic (b_into_bytes m (utf8s i)) || is_panic (b_bytes_fragments m (utf8s i)) || is_panic (y_into_string (utf8s i))
  end.

(** The strings with a type that the call returns, or leaves in place of the string it edits (see [results]). *)
Definition y_results (S : Spec) (t : ty) (i : str) (c : call) : may (list value) :=
  match c with
  | CQueryTyped => do q <- y_query_ri S t i ; Ok (opt_value S TQuery q)
  | CFragmentTyped => do f <- y_fragment_ri S t i ; Ok (opt_value S TFragment f)
  | CToIri => do r <- y_to_iri S i ; Ok (match r with inl x => [mkV S TIri x] | inr x => [mkV S TRelative x] end)
  | CToRelative => do r <- y_to_relative_iri S i ; Ok (match r with inl x => [mkV S TRelative x] | inr x => [mkV S TIri x] end)
  | CIntoIri => do r <- y_into_iri S i ; Ok (match r with inl x => [mkV S TIri x] | inr x => [mkV S TRelative x] end)
  | CIntoRelative => do r <- y_into_relative_iri S i ; Ok (match r with inl x => [mkV S TRelative x] | inr x => [mkV S TIri x] end)
  | CToAbsolute => do a <- y_to_absolute S i ; Ok [mkV S TAbsolute a]
  | CToAbsoluteAndFragment => do (a, f) <- y_to_absolute_and_fragment S i ; Ok (mkV S TAbsolute a :: opt_value S TFragment f)
  | CIntoAbsolute => do a <- y_into_absolute S i ; Ok [mkV S TAbsolute a]
  | CIntoAbsoluteAndFragment => do (a, f) <- y_into_absolute_and_fragment S i ; Ok (mkV S TAbsolute a :: opt_value S TFragment f)
  | CUpcast to => do x <- y_unchecked S (of_kind to) i ; Ok [mkV S (of_kind to) x]
  | CNormalizeOwned keep => do n <- o_normalize m keep i ; do x <- y_to_dedicated_string S t n ; Ok [mkV S t x]
  | CResolveOwned base nm => do n <- o_resolve m base i ; do x <- y_to_dedicated_string S TIri (set_mode n (of_mode nm)) ; Ok [mkV S TIri x]
  | CMaskOwned => do x <- y_mask_to_dedicated_string S t i ; Ok [mkV S t x]
  | CRemovePassword => do x <- y_remove_password_inline S t i ; Ok [mkV S t x]
  | CRemoveNonemptyPassword => do x <- y_remove_nonempty_password_inline S t i ; Ok [mkV S t x]
  | CReplaceHost h only => do (_, x) <- y_replace_host S t i h only ; Ok [mkV S t x]
  | CSetFragment f => do x <- y_set_fragment S t i f ; Ok [mkV S t x]
  | CAsUri => do o <- y_as_uri t i ; Ok (opt_value UriSpec t o)
  | CAsIri => do x <- y_as_iri t i ; Ok [mkV IriSpec t x]
  | CMapToUriOwned => do x <- y_mapped_to_dedicated_string t i ; Ok [mkV UriSpec t x]
  | CEncodeInline => do x <- y_encode_to_uri_inline t i ; Ok [mkV IriSpec t x]
  | CEncodeIntoUri => do x <- y_encode_into_uri t i ; Ok [mkV UriSpec t x]
  | CIntoUri => do r <- y_try_into_uri t i ; Ok (match r with inl x => [mkV UriSpec t x] | inr x => [mkV IriSpec t x] end)
  | _ => Ok []
  end.

(** The strings a program can have (see [reach]). *)
Section Reach.
Variables (allowed : Spec -> ty -> str -> call -> Prop) (allowed_build : Spec -> ty -> Builder -> Prop).
Inductive y_reach : list value -> Prop :=
| y_start : y_reach []
| y_make : forall pool S t s x, y_reach pool -> y_new S t s = Ok x -> y_reach (mkV S t x :: pool)
| y_invoke : forall pool S t i c vs, y_reach pool -> In (mkV S t i) pool -> has S t c -> incl (typed_arguments S c) pool ->
    allowed S t i c -> y_results S t i c = Ok vs -> y_reach (vs ++ pool)
| y_builds : forall pool S t b x s, y_reach pool -> editable t = true -> y_build m S t b = Ok x ->
    allowed_build S t b -> y_built_to_dedicated_string m S debug t x = Ok s -> y_reach (mkV S t s :: pool).
End Reach.
End Bytes.
