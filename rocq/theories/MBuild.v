(** * Model of src/build.rs.

    Padding, width and precision of the caller's formatter are in MFlags.v ([format!("{}")] and
    [to_string()] have none). *)
From Verif Require Import Base Chars Utf8 MValidate MTrusted MFormat MSearch MPct MPath MNormalize.

(** ** What std writes for integers and IP addresses (not part of the repository). *)
(** core: [Display]/[LowerHex] of an unsigned integer, [fuel] is the largest number of digits. *)
Definition digit_char (d : N) : N := if d <? 10 then 48 + d else 87 + d.
Fixpoint to_digits (fuel : nat) (base n : N) (acc : str) : str :=
  match fuel with
  | O => acc
  | S fuel =>
      let acc := digit_char (n mod base) :: acc in
      if n / base =? 0 then acc else to_digits fuel base (n / base) acc
  end.
Definition u16_dec (n : N) : str := to_digits 5 10 n [].
Definition u8_dec (n : N) : str := to_digits 3 10 n [].
Definition u16_hex (n : N) : str := to_digits 4 16 n [].
(** core [Display for Ipv4Addr]. *)
Definition v4_text (a b c d : N) : str :=
  u8_dec a ++ [DOT] ++ u8_dec b ++ [DOT] ++ u8_dec c ++ [DOT] ++ u8_dec d.
(** core [Display for Ipv6Addr] (Rust 1.50 and later): an IPv4-mapped address ends in dotted decimal,
    otherwise the first longest run of at least two zero segments is written "::". *)
Fixpoint zero_run (i : nat) (segs : list N) (cur longest : nat * nat) : nat * nat :=
  match segs with
  | [] => longest
  | s :: r =>
      if s =? 0 then
        let cur := (if Nat.eqb (snd cur) 0 then i else fst cur, Datatypes.S (snd cur)) in
        zero_run (Datatypes.S i) r cur (if Nat.ltb (snd longest) (snd cur) then cur else longest)
      else zero_run (Datatypes.S i) r (0, 0)%nat longest
  end.
Fixpoint fmt_tail (segs : list N) : str :=
  match segs with [] => [] | s :: r => [COLON] ++ u16_hex s ++ fmt_tail r end.
Definition fmt_subslice (segs : list N) : str :=
  match segs with [] => [] | s :: r => u16_hex s ++ fmt_tail r end.
Definition v6_general_text (segs : list N) : str :=
  let '(st, len) := zero_run 0 segs (0, 0)%nat (0, 0)%nat in
  if Nat.ltb 1 len then fmt_subslice (firstn st segs) ++ [COLON; COLON] ++ fmt_subslice (skipn (st + len) segs)
  else fmt_subslice segs.
Definition v6_text (segs : list N) : str :=
  match segs with
  | [a; b; c; d; e; f; g; h] =>
      if seqb [a; b; c; d; e; f] [0; 0; 0; 0; 0; 65535]
      then lit "::ffff:" ++ v4_text (g / 256) (g mod 256) (h / 256) (h mod 256)
      else v6_general_text segs
  | _ => v6_general_text segs
  end.

(** ** Builder fields *)
(** build.rs:67-82 (a [u8] port is converted to [u16]). *)
Inductive PortRepr := PortEmpty | PortInteger (n : N) | PortString (s : str).
(** build.rs:162-170 *)
Inductive UserinfoRepr := UiNone | UiDirect (s : str) | UiUserPass (user : str) (password : option str).
(** build.rs:247-261; [std::net::IpAddr]. *)
Inductive IpAddr := V4 (a b c d : N) | V6 (segments : list N).
Inductive HostRepr := HostString (s : str) | HostIp (a : IpAddr).
(** build.rs:172-181 *)
Record AuthorityBuilder := mkAB { ab_host : HostRepr; ab_port : PortRepr; ab_userinfo : UserinfoRepr }.
(** [AuthorityBuilder::default()] *)
Definition ab_default : AuthorityBuilder := mkAB (HostString []) PortEmpty UiNone.
(** build.rs:308-321 *)
Record Builder := mkB {
  b_scheme : option str; b_authority : option AuthorityBuilder; b_path : str;
  b_query : option str; b_fragment : option str; b_normalize : bool
}.
(** build.rs:326-346 [Builder::new] *)
Definition b_new : Builder := mkB None None [] None None false.

(** ** Setters, build.rs:466-1016 *)
Definition set_authority (b : Builder) (a : option AuthorityBuilder) : Builder :=
  mkB (b_scheme b) a (b_path b) (b_query b) (b_fragment b) (b_normalize b).
(** build.rs:543-545 [authority_builder]: [get_or_insert_with(default)]. *)
Definition get_authority (b : Builder) : AuthorityBuilder :=
  match b_authority b with Some a => a | None => ab_default end.
Definition b_set_scheme (b : Builder) (v : option str) : Builder :=
  mkB v (b_authority b) (b_path b) (b_query b) (b_fragment b) (b_normalize b).
Definition b_set_path (b : Builder) (v : str) : Builder :=
  mkB (b_scheme b) (b_authority b) v (b_query b) (b_fragment b) (b_normalize b).
Definition b_set_userinfo (b : Builder) (v : UserinfoRepr) : Builder :=
  let a := get_authority b in set_authority b (Some (mkAB (ab_host a) (ab_port a) v)).
Definition b_set_host (b : Builder) (v : HostRepr) : Builder :=
  let a := get_authority b in set_authority b (Some (mkAB v (ab_port a) (ab_userinfo a))).
Definition b_set_port (b : Builder) (v : PortRepr) : Builder :=
  let a := get_authority b in set_authority b (Some (mkAB (ab_host a) v (ab_userinfo a))).
Definition b_set_query (b : Builder) (v : option str) : Builder :=
  mkB (b_scheme b) (b_authority b) (b_path b) v (b_fragment b) (b_normalize b).
Definition b_set_fragment (b : Builder) (v : option str) : Builder :=
  mkB (b_scheme b) (b_authority b) (b_path b) (b_query b) v (b_normalize b).
Definition b_set_normalize (b : Builder) (v : bool) : Builder :=
  mkB (b_scheme b) (b_authority b) (b_path b) (b_query b) (b_fragment b) v.
(** One call of a setter. *)
Inductive setter :=
| OpScheme (v : str) | OpUnsetScheme | OpPath (v : str) | OpUnsetAuthority
| OpUserinfo (v : UserinfoRepr) | OpUnsetUserinfo | OpHost (v : str) | OpIpAddress (a : IpAddr)
| OpPort (v : PortRepr) | OpUnsetPort | OpQuery (v : str) | OpUnsetQuery
| OpFragment (v : str) | OpUnsetFragment | OpNormalize | OpUnsetNormalize.
Definition b_step (b : Builder) (o : setter) : Builder :=
  match o with
  | OpScheme v => b_set_scheme b (Some v)
  | OpUnsetScheme => b_set_scheme b None
  | OpPath v => b_set_path b v
  | OpUnsetAuthority => set_authority b None
  | OpUserinfo v => b_set_userinfo b v
  | OpUnsetUserinfo => b_set_userinfo b UiNone
  | OpHost v => b_set_host b (HostString v)
  | OpIpAddress a => b_set_host b (HostIp a)
  | OpPort v => b_set_port b v
  | OpUnsetPort => b_set_port b PortEmpty
  | OpQuery v => b_set_query b (Some v)
  | OpUnsetQuery => b_set_query b None
  | OpFragment v => b_set_fragment b (Some v)
  | OpUnsetFragment => b_set_fragment b None
  | OpNormalize => b_set_normalize b true
  | OpUnsetNormalize => b_set_normalize b false
  end.
Definition b_steps (l : list setter) : Builder := fold_left b_step l b_new.

(** ** Writing *)
Section Fmt.
Variable S : Spec.
(** build.rs:183-242 [AuthorityBuilder::fmt_write_to] *)
Definition fmt_authority (a : AuthorityBuilder) (normalize : bool) : W unit :=
  match ab_userinfo a with
  | UiNone => wret tt
  | UiDirect u => (if normalize then PctCaseNormalized S u else write u) >> write [AT]
  | UiUserPass user password =>
      (if normalize then PctCaseNormalized S user else write user) >>
      match password with
      | Some p => write [COLON] >> (if normalize then PctCaseNormalized S p else write p)
      | None => wret tt
      end >>
      write [AT]
  end >>
  match ab_host a with
  | HostString h => if normalize then normalize_host_port S h else write h
  | HostIp (V4 x y z w) => write (v4_text x y z w)
  | HostIp (V6 segs) => write (lit "[") >> write (v6_text segs) >> write (lit "]")
  end >>
  match ab_port a with
  | PortEmpty => wret tt
  | PortInteger v => write [COLON] >> write (u16_dec v)
  | PortString v => if negb (is_empty v && normalize) then write [COLON] >> write v else wret tt
  end.
(** build.rs:348-415 [Builder::fmt_write_to] *)
Definition fmt_builder (b : Builder) (path_is_absolute : bool) : W unit :=
  match b_scheme b with
  | Some s => (if b_normalize b then normalize_scheme s else write s) >> write [COLON]
  | None => wret tt
  end >>
  match b_authority b with
  | Some a => write [SLASH; SLASH] >> fmt_authority a (b_normalize b)
  | None => wret tt
  end >>
  (if negb (b_normalize b) then write (b_path b)
   else if is_some (b_scheme b) || is_some (b_authority b) || path_is_absolute then
     fmt_write_normalize S MDefault (is_some (b_authority b)) (from_single_path (b_path b))
   else PctCaseNormalized S (b_path b)) >>
  match b_query b with
  | Some q => write [QMARK] >> (if b_normalize b then normalize_query S q else write q)
  | None => wret tt
  end >>
  match b_fragment b with
  | Some f => write [HASH] >> (if b_normalize b then normalize_fragment S f else write f)
  | None => wret tt
  end.

(** ** Validation, build.rs:1274-1376: the result is [path_is_absolute]. *)
Definition all_digits (s : str) : bool := forallb is_digit s.
Definition validate_authority_builder (a : AuthorityBuilder) : res ErrorKind unit :=
  do _ <- match ab_userinfo a with
          | UiNone => Ok tt
          | UiDirect u => validate_userinfo S u
          | UiUserPass user password =>
              if existsb (N.eqb COLON) user then Err InvalidUserInfo
              else
                do _ <- validate_userinfo S user ;
                match password with Some p => validate_userinfo S p | None => Ok tt end
          end ;
  do _ <- match ab_host a with HostString h => validate_host S h | HostIp _ => Ok tt end ;
  match ab_port a with
  | PortString s => if negb (all_digits s) then Err InvalidPort else Ok tt
  | _ => Ok tt
  end.
(** A first ':' before any '/'. *)
Definition colon_first (p : str) : bool :=
  match prior_byte2_p (utf8s p) SLASH COLON with Some c => c =? COLON | None => false end.
Definition up {A} (r : may A) : res ErrorKind A :=
  match r with Ok a => Ok a | Err e => match e with end | Panic => Panic end.
(** (is_path_acceptable, path_is_absolute), build.rs:1320-1363 *)
Definition check_path (b : Builder) : may (bool * bool) :=
  let path := b_path b in
  let sch := is_some (b_scheme b) in
  let aut := is_some (b_authority b) in
  if b_normalize b then
    if sch || aut || starts_with [SLASH] path then
      let acceptable := if aut then is_empty path || starts_with [SLASH] path else true in
      do pc <- from_path_to_display S (from_single_path path) MDefault aut ;
      Ok (acceptable && match pc with
                        | CommonAbsolute | CommonRelative => true
                        | StartsWithDoubleSlash | RelativeFirstSegmentHasColon => sch || aut
                        end, pc_is_absolute pc)
    else Ok (negb (colon_first path), false)
  else
    let absolute := starts_with [SLASH] path in
    Ok (if aut then absolute || is_empty path
        else if sch || absolute then negb (starts_with [SLASH; SLASH] path)
        else negb (colon_first path), absolute).
Definition validate_builder_for_iri_reference (b : Builder) : res ErrorKind bool :=
  do _ <- match b_scheme b with Some s => validate_scheme s | None => Ok tt end ;
  do _ <- match b_authority b with Some a => validate_authority_builder a | None => Ok tt end ;
  do (acceptable, absolute) <- up (check_path b) ;
  if negb acceptable then Err InvalidPath
  else
    do _ <- match b_query b with Some q => validate_query S q | None => Ok tt end ;
    do _ <- match b_fragment b with Some f => validate_fragment S f | None => Ok tt end ;
    Ok absolute.
(** build.rs:417-451, 1196-1268: [Builder::build::<T>] for the four buildable types; the value carries
    [path_is_absolute] ([Built], build.rs:1116-1123). *)
Definition build (t : ty) (b : Builder) : res ErrorKind (Builder * bool) :=
  do _ <- match t with
          | TIri => if is_some (b_scheme b) then Ok tt else Err InvalidScheme
          | TAbsolute => if negb (is_some (b_scheme b)) then Err InvalidScheme
                         else if is_some (b_fragment b) then Err UnexpectedFragment else Ok tt
          | TRelative => if is_some (b_scheme b) then Err UnexpectedAbsolute else Ok tt
          | _ => Ok tt
          end ;
  do abs <- validate_builder_for_iri_reference b ;
  Ok (b, abs).
(** build.rs:1148-1153 [Display for Built] *)
Definition built_display (x : Builder * bool) : W unit := fmt_builder (fst x) (snd x).
(** build.rs:1155-1194 [try_to_dedicated_string] and [From<Built> for String]. *)
Definition built_to_dedicated_string (debug : bool) (t : ty) (x : Builder * bool) : may str :=
  do s <- text (built_display x) ; new_unchecked_justified debug S t s.
(** build.rs:1136-1146 [Built::ensure_rfc3986_normalizable]: [true] is [Ok(())]. *)
Definition built_ensure (x : Builder * bool) : may bool :=
  if is_some (b_authority (fst x)) then Ok true
  else ensure_rfc3986_normalizable_with_authority_absent (from_single_path (b_path (fst x))).
End Fmt.

(** build.rs:1019-1047 [From<&RiReferenceStr>]; the other [From] impls (1049-1099) delegate to it. *)
Definition builder_from (i : str) : may Builder :=
  do (s, a, p, q, f) <- to_major i ;
  do a <- match a with
          | None => Ok None
          | Some a =>
              let ac := decompose_authority a in
              do h <- ac_host ac ;
              do o <- ac_port ac ;
              do u <- ac_userinfo ac ;
              Ok (Some (mkAB (HostString h)
                             (match o with Some o => PortString o | None => PortEmpty end)
                             (match u with Some u => UiDirect u | None => UiNone end)))
          end ;
  Ok (mkB s a p q f false).
