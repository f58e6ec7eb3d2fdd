(** * Byte-level model of the builder (src/build.rs) with either search configuration, on top of the
    byte-level validators (MBytes.v) and normalization (MOffset.v). *)
From Verif Require Import Base Chars Utf8 MValidate MTrusted MFormat MWriters MSearch MPct MPath MNormalize MBuild MOffset MBytes.

(** types/generic/fragment.rs:100-105, query.rs:104-109 [from_prefixed]: [&s[1..]] after [starts_with]. *)
Definition y_from_prefixed (validate : str -> vres) (c : N) (k : ErrorKind) (s : str) : res ErrorKind str :=
  match utf8s s with
  | b :: _ => if b =? c then do r <- up (str_from s 1) ; validate r ;; Ok r else Err k
  | [] => Err k
  end.
Section Bytes.
Variable m : option memchr_crate.
Variable S : Spec.
(** build.rs:183-242 [AuthorityBuilder::fmt_write_to] *)
Definition y_fmt_authority (a : AuthorityBuilder) (normalize : bool) : W unit :=
  match ab_userinfo a with
  | UiNone => wret tt
  | UiDirect u => (if normalize then o_PctCaseNormalized m S u else write u) >> write [AT]
  | UiUserPass user password =>
      (if normalize then o_PctCaseNormalized m S user else write user) >>
      match password with
      | Some p => write [COLON] >> (if normalize then o_PctCaseNormalized m S p else write p)
      | None => wret tt
      end >>
      write [AT]
  end >>
  match ab_host a with
  | HostString h => if normalize then o_normalize_host_port m S h else write h
  | HostIp (V4 x y z w) => write (v4_text x y z w)
  | HostIp (V6 segs) => write (lit "[") >> write (v6_text segs) >> write (lit "]")
  end >>
  match ab_port a with
  | PortEmpty => wret tt
  | PortInteger v => write [COLON] >> write (u16_dec v)
  | PortString v => if negb (is_empty v && normalize) then write [COLON] >> write v else wret tt
  end.
(** build.rs:348-415 [Builder::fmt_write_to] *)
Definition y_fmt_builder (b : Builder) (path_is_absolute : bool) : W unit :=
  match b_scheme b with
  | Some s => (if b_normalize b then normalize_scheme s else write s) >> write [COLON]
  | None => wret tt
  end >>
  match b_authority b with
  | Some a => write [SLASH; SLASH] >> y_fmt_authority a (b_normalize b)
  | None => wret tt
  end >>
  (if negb (b_normalize b) then write (b_path b)
   else if is_some (b_scheme b) || is_some (b_authority b) || path_is_absolute then
     o_fmt_write_normalize m S MDefault (is_some (b_authority b)) (from_single_path (b_path b))
   else o_PctCaseNormalized m S (b_path b)) >>
  match b_query b with
  | Some q => write [QMARK] >> (if b_normalize b then o_PctCaseNormalized m S q else write q)
  | None => wret tt
  end >>
  match b_fragment b with
  | Some f => write [HASH] >> (if b_normalize b then o_PctCaseNormalized m S f else write f)
  | None => wret tt
  end.

(** ** Validation, build.rs:1274-1376: the result is [path_is_absolute]. *)
Definition y_validate_authority_builder (a : AuthorityBuilder) : res ErrorKind unit :=
  do _ <- match ab_userinfo a with
          | UiNone => Ok tt
          | UiDirect u => b_validate_userinfo S u
          | UiUserPass user password =>
              if is_some (position (N.eqb COLON) (utf8s user)) then Err InvalidUserInfo
              else
                do _ <- b_validate_userinfo S user ;
                match password with Some p => b_validate_userinfo S p | None => Ok tt end
          end ;
  do _ <- match ab_host a with HostString h => b_validate_host m S h | HostIp _ => Ok tt end ;
  match ab_port a with
  | PortString s => if negb (forallb is_digit (utf8s s)) then Err InvalidPort else Ok tt
  | _ => Ok tt
  end.
(** A first ':' before any '/': [prior_byte2(path.as_bytes(), b'/', b':') == Some(b':')]. *)
Definition y_colon_first (p : str) : may bool :=
  do x <- match m with Some m => prior_byte2_m m (utf8s p) SLASH COLON | None => Ok (prior_byte2_p (utf8s p) SLASH COLON) end ;
  Ok (match x with Some c => c =? COLON | None => false end).
(** (is_path_acceptable, path_is_absolute), build.rs:1320-1363 *)
Definition y_check_path (b : Builder) : may (bool * bool) :=
  let path := b_path b in
  let sch := is_some (b_scheme b) in
  let aut := is_some (b_authority b) in
  if b_normalize b then
    if sch || aut || starts_with [SLASH] path then
      let acceptable := if aut then is_empty path || starts_with [SLASH] path else true in
      do pc <- o_from_path_to_display m S (from_single_path path) MDefault aut ;
      Ok (acceptable && match pc with
                        | CommonAbsolute | CommonRelative => true
                        | StartsWithDoubleSlash | RelativeFirstSegmentHasColon => sch || aut
                        end, pc_is_absolute pc)
    else do c <- y_colon_first path ; Ok (negb c, false)
  else
    let absolute := starts_with [SLASH] path in
    if aut then Ok (absolute || is_empty path, absolute)
    else if sch || absolute then Ok (negb (starts_with [SLASH; SLASH] path), absolute)
    else do c <- y_colon_first path ; Ok (negb c, absolute).
Definition y_validate_builder_for_iri_reference (b : Builder) : res ErrorKind bool :=
  do _ <- match b_scheme b with Some s => b_validate_scheme s | None => Ok tt end ;
  do _ <- match b_authority b with Some a => y_validate_authority_builder a | None => Ok tt end ;
  do (acceptable, absolute) <- up (y_check_path b) ;
  if negb acceptable then Err InvalidPath
  else
    do _ <- match b_query b with Some q => b_validate_query S q | None => Ok tt end ;
    do _ <- match b_fragment b with Some f => b_validate_fragment S f | None => Ok tt end ;
    Ok absolute.
(** build.rs:417-451, 1196-1268: [Builder::build::<T>] for the four buildable types; the value carries
    [path_is_absolute] ([Built], build.rs:1116-1123). *)
Definition y_build (t : ty) (b : Builder) : res ErrorKind (Builder * bool) :=
  do _ <- match t with
          | TIri => if is_some (b_scheme b) then Ok tt else Err InvalidScheme
          | TAbsolute => if negb (is_some (b_scheme b)) then Err InvalidScheme
                         else if is_some (b_fragment b) then Err UnexpectedFragment else Ok tt
          | TRelative => if is_some (b_scheme b) then Err UnexpectedAbsolute else Ok tt
          | _ => Ok tt
          end ;
  do abs <- y_validate_builder_for_iri_reference b ;
  Ok (b, abs).
(** build.rs:1148-1153 [Display for Built] *)
Definition y_built_display (x : Builder * bool) : W unit := y_fmt_builder (fst x) (snd x).
(** build.rs:1155-1194 [try_to_dedicated_string] and [From<Built> for String]. *)
Definition y_built_to_dedicated_string (debug : bool) (t : ty) (x : Builder * bool) : may str :=
  do s <- text (y_built_display x) ; if debug && negb (is_ok (b_validate m S t s)) then Panic else Ok s.
(** build.rs:1136-1146 [Built::ensure_rfc3986_normalizable]: [true] is [Ok(())]. *)
Definition y_built_ensure (x : Builder * bool) : may bool :=
  if is_some (b_authority (fst x)) then Ok true
  else o_ensure_rfc3986_normalizable_with_authority_absent m (from_single_path (b_path (fst x))).
End Bytes.

(** build.rs:1019-1047 [From<&RiReferenceStr>]; the other [From] impls (1049-1099) delegate to it. *)
Definition y_builder_from (m : option memchr_crate) (i : str) : may Builder :=
  do (s, a, p, q, f) <- o_to_major m i ;
  do a <- match a with
          | None => Ok None
          | Some a =>
              do ac <- o_decompose_authority m a ;
              do h <- o_ac_host ac ;
              do o <- o_ac_port ac ;
              do u <- o_ac_userinfo ac ;
              Ok (Some (mkAB (HostString h)
                             (match o with Some o => PortString o | None => PortEmpty end)
                             (match u with Some u => UiDirect u | None => UiNone end)))
          end ;
  Ok (mkB s a p q f false).
