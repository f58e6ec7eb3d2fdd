(** * Byte-level model of the validators (src/parser/validate.rs, validate/authority.rs, validate/path.rs,
    trusted/authority.rs [is_host_reg_name]) and of percent-encoding normalization
    (src/normalize/pct_case.rs, the authority part of src/normalize.rs).

    As in MOffset.v, positions count bytes of UTF-8, slicing inside a character panics, and the searches of
    src/parser/str.rs use the memchr crate ([Some m]) or not ([None]).  Predicates that the code applies to
    bytes are applied to the bytes here; a look-up in the character table outside of it (128 entries) panics,
    and every debug assertion is a panic. *)
From Verif Require Import Base Chars Utf8 MValidate MTrusted MFormat MSearch MPct MNormalize MOffset.

(** A search that panics makes the validator panic. *)
Definition up {A} (x : may A) : res ErrorKind A := match x with Ok a => Ok a | _ => Panic end.
(** core [Iterator::all] over bytes with a predicate that may panic. *)
Fixpoint all_bytes (f : N -> may bool) (l : list N) : may bool :=
  match l with
  | [] => Ok true
  | b :: r => do x <- f b ; if x then all_bytes f r else Ok false
  end.
(** src/parser/char.rs:157-262 [TABLE[c as usize] & MASK]: the table has 128 entries. *)
Definition look (f : N -> bool) (b : N) : may bool := if b <? 128 then Ok (f b) else Panic.

(** str.rs:14-24 *)
Definition b_get_wrapped_inner (s : str) (open close : N) : may (option str) :=
  match utf8s s with
  | prefix :: ((_ :: _) as r) =>
      if (prefix =? open) && (last r 0 =? close)
      then do x <- bslice s 1 (blen s - 1) ; Ok (Some x)
      else Ok None
  | _ => Ok None
  end.
(** str.rs:305-335; [chars()] decodes the characters. *)
Fixpoint b_satisfy (pa pn : N -> bool) (s : str) : may bool :=
  match s with
  | [] => Ok true
  | c :: r =>
      if c <? 128 then
        if c =? PCT then
          match r with
          | u :: l :: r2 =>
              if is_hexdigit u then if is_hexdigit l then b_satisfy pa pn r2 else Ok false else Ok false
          | _ => Ok false
          end
        else do x <- look pa c ; if x then b_satisfy pa pn r else Ok false
      else if pn c then b_satisfy pa pn r else Ok false
  end.
(** str.rs:366-373 *)
Definition b_strip_ascii_char_prefix (s : str) (p : N) : may (option str) :=
  match utf8s s with
  | b :: _ => if b =? p then do r <- str_from s 1 ; Ok (Some r) else Ok None
  | [] => Ok None
  end.

(** validate.rs:23-35 *)
Definition b_validate_scheme (i : str) : vres :=
  do ok <- up (match utf8s i with
               | [] => Ok false
               | b :: r => if is_alpha b
                           then all_bytes (fun b => if b <? 128 then look is_ascii_scheme_continue b else Ok false) r
                           else Ok false
               end) ;
  check ok InvalidScheme.
(** validate.rs:38-46, 214-225, validate/authority.rs:15-26, path.rs:91-99 *)
Definition b_chars (pa pn : N -> bool) (k : ErrorKind) (i : str) : vres := do ok <- up (b_satisfy pa pn i) ; check ok k.
Definition b_validate_query (S : Spec) := b_chars is_ascii_frag_query (is_nonascii_query S) InvalidQuery.
Definition b_validate_fragment (S : Spec) := b_chars is_ascii_frag_query (is_nonascii_fragment S) InvalidFragment.
Definition b_validate_userinfo (S : Spec) := b_chars is_ascii_userinfo_ipvfutureaddr (is_nonascii_userinfo S) InvalidUserInfo.
Definition b_path_chars (S : Spec) := b_chars is_ascii_pchar_slash (is_nonascii_char_unreserved S) InvalidPath.
Definition b_validate_path_segment (S : Spec) := b_chars is_ascii_pchar (is_nonascii_char_unreserved S) InvalidPath.

Section Validate.
Variable m : option memchr_crate.
Definition fs (s : str) (n : N) :=
  match m with Some m => find_split_m m s n | None => find_split_p s n end.
Definition fs2_hole (s : str) (a b : N) :=
  match m with Some m => find_split2_hole_m m s a b | None => find_split2_hole_p s a b end.

(** validate/authority.rs:32-64; [is_dec_octet] matches on [as_bytes()]. *)
Definition b_validate_ipv4address (i : str) : vres :=
  do r1 <- up (fs_hole m i DOT) ;
  match r1 with
  | None => Err InvalidHost
  | Some (first, rest) =>
      if negb (is_dec_octet (utf8s first)) then Err InvalidHost else
      do r2 <- up (fs_hole m rest DOT) ;
      match r2 with
      | None => Err InvalidHost
      | Some (second, rest) =>
          if negb (is_dec_octet (utf8s second)) then Err InvalidHost else
          do r3 <- up (fs_hole m rest DOT) ;
          match r3 with
          | None => Err InvalidHost
          | Some (third, fourth) =>
              if is_dec_octet (utf8s third) && is_dec_octet (utf8s fourth) then Ok tt else Err InvalidHost
          end
      end
  end.
(** validate/authority.rs:82-120 *)
Definition b_split_v6_addr_part (i : str) : res ErrorKind (str * V6AddrPart) :=
  if is_empty i then Panic else
  do r <- up (fs_hole m i COLON) ;
  match r with
  | Some (prefix, rest) =>
      if Nat.leb 5 (blen prefix) then Err InvalidHost
      else if is_empty prefix then
        do s <- up (b_strip_ascii_char_prefix rest COLON) ;
        match s with
        | Some rest => Ok (rest, Omit)
        | None => Err InvalidHost
        end
      else if negb (Nat.leb 1 (blen prefix) && Nat.leb (blen prefix) 4) then Panic
      else if negb (forallb is_hexdigit (utf8s prefix)) then Err InvalidHost
      else do s <- up (b_strip_ascii_char_prefix rest COLON) ;
           match s with
           | Some rest => Ok (rest, H16Omit)
           | None => Ok (rest, H16Cont)
           end
  | None =>
      if Nat.leb 5 (blen i) then
        b_validate_ipv4address i ;; Ok ([], V4)
      else if forallb is_hexdigit (utf8s i) then Ok ([], H16End)
      else Err InvalidHost
  end.
(** validate/authority.rs:123-174; [debug_assert!(rest.is_empty())] after an IPv4 part. *)
Fixpoint b_v6_loop (fuel : nat) (i : str) (h16_count : nat) (is_omitted : bool) : vres :=
  match fuel with
  | O => Panic
  | Datatypes.S fuel =>
      if is_empty i then v6_final h16_count is_omitted
      else
        do (rest, part) <- b_split_v6_addr_part i ;
        let next h16_count is_omitted :=
          if Nat.ltb 8 h16_count then Err InvalidHost
          else b_v6_loop fuel rest h16_count is_omitted in
        match part with
        | H16Omit =>
            if is_omitted then Err InvalidHost else next (h16_count + 1)%nat true
        | H16Cont =>
            if is_empty rest then Err InvalidHost else next (h16_count + 1)%nat is_omitted
        | H16End => v6_final (h16_count + 1) is_omitted
        | V4 => if negb (is_empty rest) then Panic else v6_final (h16_count + 2) is_omitted
        | Omit => if is_omitted then Err InvalidHost else next h16_count true
        end
  end.
Definition b_validate_ipv6address (i : str) : vres :=
  b_v6_loop (Datatypes.S (length i)) i 0 false.
(** validate/authority.rs:203-249 *)
Definition b_validate_host (S : Spec) (i : str) : vres :=
  do w <- up (b_get_wrapped_inner i LBRACK RBRACK) ;
  match w with
  | Some maybe_addr =>
      do v <- up (b_strip_ascii_char_prefix maybe_addr 118) ;
      do v <- match v with
              | Some r => Ok (Some r)
              | None => up (b_strip_ascii_char_prefix maybe_addr 86)
              end ;
      match v with
      | Some maybe_addr_rest =>
          do r <- up (fs_hole m maybe_addr_rest DOT) ;
          match r with
          | None => Err InvalidHost
          | Some (maybe_ver, maybe_addr) =>
              if is_empty maybe_ver || negb (forallb is_hexdigit (utf8s maybe_ver)) then Err InvalidHost
              else do ok <- up (if negb (is_empty maybe_addr) && forallb (fun b => b <? 128) (utf8s maybe_addr)
                                then all_bytes (look is_ascii_userinfo_ipvfutureaddr) (utf8s maybe_addr)
                                else Ok false) ;
                   check ok InvalidHost
          end
      | None => b_validate_ipv6address maybe_addr
      end
  | None => b_chars is_ascii_regname (is_nonascii_regname S) InvalidHost i
  end.
(** validate/authority.rs:177-200 *)
Definition b_validate_authority (S : Spec) (i : str) : vres :=
  do r <- up (fs_hole m i AT) ;
  do i <- match r with
          | Some (maybe_userinfo, i) => b_validate_userinfo S maybe_userinfo ;; Ok i
          | None => Ok i
          end ;
  do r <- up (rfs_hole m i COLON) ;
  let maybe_host :=
    match r with
    | Some (maybe_host, maybe_port) =>
        if forallb is_digit (utf8s maybe_port) then maybe_host else i
    | None => i
    end in
  b_validate_host S maybe_host.
(** trusted/authority.rs:46-96 *)
Definition b_is_host_reg_name (host : str) : may bool :=
  if starts_with [LBRACK] host then Ok false
  else if negb (Nat.leb 7 (blen host) && Nat.leb (blen host) 15) then Ok true
  else
    do r1 <- fs_hole m host DOT ;
    match r1 with
    | None => Ok true
    | Some (o0, rest) =>
        do r2 <- fs_hole m rest DOT ;
        match r2 with
        | None => Ok true
        | Some (o1, rest) =>
            do r3 <- fs_hole m rest DOT ;
            match r3 with
            | None => Ok true
            | Some (o2, o3) =>
                Ok (negb (is_dec_octet (utf8s o0) && is_dec_octet (utf8s o1) && is_dec_octet (utf8s o2) && is_dec_octet (utf8s o3)))
            end
        end
    end.
(** validate/authority.rs:252-263 *)
Definition b_validate_reg_name (S : Spec) (i : str) : vres :=
  do a <- up (b_satisfy is_ascii_regname (is_nonascii_regname S) i) ;
  if a then do b <- up (b_is_host_reg_name i) ; check b InvalidRegName else Err InvalidRegName.
(** path.rs:9-88 *)
Definition b_validate_path_abempty (S : Spec) (i : str) : vres :=
  if is_empty i then Ok tt
  else match strip_prefix [SLASH] i with
       | Some rest => b_path_chars S rest
       | None => Err InvalidPath
       end.
Definition b_validate_path_absolute_authority_absent (S : Spec) (i : str) : vres :=
  if is_empty i then Ok tt
  else if starts_with [SLASH; SLASH] i then Panic
  else b_path_chars S i.
Definition b_validate_path_relative_authority_absent (S : Spec) (i : str) : vres :=
  if starts_with [SLASH; SLASH] i then Panic
  else do r <- up (fs2_hole i SLASH COLON) ;
       match r with
       | None => b_path_chars S i
       | Some (_, c, _) =>
           if c =? SLASH then b_path_chars S i
           else if negb (c =? COLON) then Panic else Err InvalidPath
       end.
(** validate.rs:49-56 *)
Definition b_validate_authority_path_abempty (S : Spec) (i : str) : vres :=
  do r <- up (fs i SLASH) ;
  let '(maybe_authority, maybe_path) := match r with Some v => v | None => (i, []) end in
  b_validate_authority S maybe_authority ;;
  b_validate_path_abempty S maybe_path.
(** validate.rs:196-211 *)
Definition b_validate_after_path (S : Spec) (first : N) (rest : str) (accept_fragment : bool) : vres :=
  do (maybe_query, maybe_fragment) <-
    (if first =? QMARK then
       do r <- up (fs_hole m rest HASH) ; Ok (match r with Some v => v | None => (rest, []) end)
     else if negb (first =? HASH) then Panic else Ok ([], rest)) ;
  b_validate_query S maybe_query ;;
  if negb accept_fragment && negb (is_empty maybe_fragment) then Err UnexpectedFragment
  else b_validate_fragment S maybe_fragment.
(** validate.rs:138-161, 168-191 *)
Definition b_validate_after_scheme (S : Spec) (path_v : str -> vres) (accept_fragment : bool) (i : str) : vres :=
  do after_path <-
    match strip_prefix [SLASH; SLASH] i with
    | Some i =>
        do r <- up (fs2_hole i QMARK HASH) ;
        match r with
        | Some (ap, c, rest) => b_validate_authority_path_abempty S ap ;; Ok (Some (c, rest))
        | None => b_validate_authority_path_abempty S i ;; Ok None
        end
    | None =>
        do r <- up (fs2_hole i QMARK HASH) ;
        match r with
        | Some (p, c, rest) => path_v p ;; Ok (Some (c, rest))
        | None => path_v i ;; Ok None
        end
    end ;
  match after_path with
  | Some (first, rest) => b_validate_after_path S first rest accept_fragment
  | None => Ok tt
  end.
(** validate.rs:166-193 *)
Definition b_validate_relative_ref (S : Spec) (i : str) : vres :=
  b_validate_after_scheme S (b_validate_path_relative_authority_absent S) true i.
(** validate.rs:110-163 *)
Definition b_validate_uri_reference_common (S : Spec) (i : str) (rule : UriReferenceRule) : vres :=
  do r <- up (fs_hole m i COLON) ;
  match r with
  | None =>
      if is_relative_allowed rule then b_validate_relative_ref S i else Err UnexpectedRelative
  | Some (maybe_scheme, rest) =>
      match b_validate_scheme maybe_scheme with
      | Panic => Panic
      | Err _ => if is_relative_allowed rule then b_validate_relative_ref S i else Err InvalidScheme
      | Ok _ => b_validate_after_scheme S (b_validate_path_absolute_authority_absent S) (is_fragment_allowed rule) rest
      end
  end.
(** The validators of the six types: types/generic/{absolute,normal,reference,relative,query,fragment}.rs. *)
Definition b_validate (S : Spec) (t : ty) (s : str) : vres :=
  match t with
  | TAbsolute => b_validate_uri_reference_common S s RAbsoluteWithoutFragment
  | TIri => b_validate_uri_reference_common S s RAbsolute
  | TReference => b_validate_uri_reference_common S s RAny
  | TRelative => b_validate_relative_ref S s
  | TQuery => b_validate_query S s
  | TFragment => b_validate_fragment S s
  end.
End Validate.
