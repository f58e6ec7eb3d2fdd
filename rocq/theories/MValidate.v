(** * Model of src/parser/str.rs (searching) and src/parser/validate*.rs (validators). *)
From Verif Require Import Base Chars.

(** ** src/parser/str.rs *)

(** str.rs:14-24 [get_wrapped_inner]: needs at least two bytes. *)
Definition get_wrapped_inner (s : str) (open close : N) : option str :=
  match s with
  | [] => None
  | p :: r =>
      match rev r with
      | [] => None
      | q :: ri => if (p =? open) && (q =? close) then Some (rev ri) else None
      end
  end.

(** str.rs:66-71 (and the memchr variant 78-80): split keeping the needle in the second half. *)
Definition find_split (s : str) (n : N) : option (str * str) :=
  match split_first (N.eqb n) s with Some (a, c, b) => Some (a, c :: b) | None => None end.
(** str.rs:87-92 *)
Definition rfind_split2 (s : str) (n1 n2 : N) : option (str * str) :=
  match split_last (fun c => (c =? n1) || (c =? n2)) s with
  | Some (a, c, b) => Some (a, c :: b) | None => None end.
(** str.rs:108-113 *)
Definition find_split2 (s : str) (n1 n2 : N) : option (str * str) :=
  match split_first (fun c => (c =? n1) || (c =? n2)) s with
  | Some (a, c, b) => Some (a, c :: b) | None => None end.
(** str.rs:129-139 *)
Definition find_split3 (s : str) (n1 n2 n3 : N) : option (str * str) :=
  match split_first (fun c => (c =? n1) || (c =? n2) || (c =? n3)) s with
  | Some (a, c, b) => Some (a, c :: b) | None => None end.
(** str.rs:161-173 *)
Definition find_split_hole (s : str) (n : N) : option (str * str) :=
  match split_first (N.eqb n) s with Some (a, _, b) => Some (a, b) | None => None end.
(** str.rs:195-210 *)
Definition find_split2_hole (s : str) (n1 n2 : N) : option (str * N * str) :=
  split_first (fun c => (c =? n1) || (c =? n2)) s.
(** str.rs:236-253 (portable variant; the memchr variant 260-279 is [find_split4_hole_memchr]
    in MSearch.v). *)
Definition find_split4_hole (s : str) (n1 n2 n3 n4 : N) : option (str * N * str) :=
  split_first (fun c => (c =? n1) || (c =? n2) || (c =? n3) || (c =? n4)) s.
(** str.rs:286-291 *)
Definition rfind_split_hole (s : str) (n : N) : option (str * str) :=
  match split_last (N.eqb n) s with Some (a, _, b) => Some (a, b) | None => None end.

(** str.rs:305-335 [satisfy_chars_with_pct_encoded]. *)
Fixpoint satisfy_chars_with_pct_encoded (pa pn : N -> bool) (s : str) : bool :=
  match s with
  | [] => true
  | c :: r =>
      if is_ascii c then
        if c =? PCT then
          match r with
          | u :: r1 =>
              if is_hexdigit u then
                match r1 with
                | l :: r2 =>
                    if is_hexdigit l then satisfy_chars_with_pct_encoded pa pn r2 else false
                | [] => false
                end
              else false
          | [] => false
          end
        else if pa c then satisfy_chars_with_pct_encoded pa pn r else false
      else if pn c then satisfy_chars_with_pct_encoded pa pn r else false
  end.

(** str.rs:366-373 *)
Definition strip_ascii_char_prefix (s : str) (p : N) : option str :=
  match s with c :: r => if c =? p then Some r else None | [] => None end.

(** ** src/validate.rs: error kinds (src/validate.rs ErrorKind). *)
Inductive ErrorKind :=
| InvalidFragment | InvalidHost | InvalidPath | InvalidQuery | InvalidRegName | InvalidScheme
| InvalidUserInfo | InvalidPort | InvalidUtf8 | UnexpectedAbsolute | UnexpectedFragment | UnexpectedRelative.

Definition vres := res ErrorKind unit.
Definition check (b : bool) (k : ErrorKind) : vres := if b then Ok tt else Err k.

(** ** src/parser/validate.rs *)

(** validate.rs:23-35 *)
Definition validate_scheme (i : str) : vres :=
  check (match i with
         | [] => false
         | c :: r => is_alpha c && forallb (fun b => is_ascii b && is_ascii_scheme_continue b) r
         end) InvalidScheme.

(** validate.rs:38-46 *)
Definition validate_query (S : Spec) (i : str) : vres :=
  check (satisfy_chars_with_pct_encoded is_ascii_frag_query (is_nonascii_query S) i) InvalidQuery.

(** validate.rs:214-225 *)
Definition validate_fragment (S : Spec) (i : str) : vres :=
  check (satisfy_chars_with_pct_encoded is_ascii_frag_query (is_nonascii_fragment S) i)
        InvalidFragment.

(** validate/authority.rs:15-26 *)
Definition validate_userinfo (S : Spec) (i : str) : vres :=
  check (satisfy_chars_with_pct_encoded is_ascii_userinfo_ipvfutureaddr (is_nonascii_userinfo S) i)
        InvalidUserInfo.

(** validate/authority.rs:32-41 (also trusted/authority.rs:87-96, the same patterns). *)
Definition is_dec_octet (i : str) : bool :=
  match i with
  | [a] => between 48 57 a
  | [a; b] => between 49 57 a && between 48 57 b
  | [a; b; c] =>
      ((a =? 49) && between 48 57 b && between 48 57 c)
      || ((a =? 50) && between 48 52 b && between 48 57 c)
      || ((a =? 50) && (b =? 53) && between 48 53 c)
  | _ => false
  end.

(** validate/authority.rs:44-64 *)
Definition validate_ipv4address (i : str) : vres :=
  match find_split_hole i DOT with
  | None => Err InvalidHost
  | Some (first, rest) =>
      if negb (is_dec_octet first) then Err InvalidHost else
      match find_split_hole rest DOT with
      | None => Err InvalidHost
      | Some (second, rest) =>
          if negb (is_dec_octet second) then Err InvalidHost else
          match find_split_hole rest DOT with
          | None => Err InvalidHost
          | Some (third, fourth) =>
              if is_dec_octet third && is_dec_octet fourth then Ok tt else Err InvalidHost
          end
      end
  end.

(** validate/authority.rs:68-79 *)
Inductive V6AddrPart := H16Omit | H16Cont | H16End | V4 | Omit.

(** validate/authority.rs:82-120.  [len()] is the byte length. *)
Definition split_v6_addr_part (i : str) : res ErrorKind (str * V6AddrPart) :=
  match find_split_hole i COLON with
  | Some (prefix, rest) =>
      if Nat.leb 5 (blen prefix) then Err InvalidHost
      else if is_empty prefix then
        match strip_ascii_char_prefix rest COLON with
        | Some rest => Ok (rest, Omit)
        | None => Err InvalidHost
        end
      else if negb (forallb is_hexdigit prefix) then Err InvalidHost
      else match strip_ascii_char_prefix rest COLON with
           | Some rest => Ok (rest, H16Omit)
           | None => Ok (rest, H16Cont)
           end
  | None =>
      if Nat.leb 5 (blen i) then
        validate_ipv4address i ;; Ok ([], V4)
      else if forallb is_hexdigit i then Ok ([], H16End)
      else Err InvalidHost
  end.

(** validate/authority.rs:164-173: the final check after the loop. *)
Definition v6_final (h16_count : nat) (is_omitted : bool) : vres :=
  check (if is_omitted then Nat.ltb h16_count 8 else Nat.eqb h16_count 8) InvalidHost.

(** validate/authority.rs:126-163: the [while !i.is_empty()] loop; [fuel] bounds the number of
    iterations (out of fuel = [Panic]); [break] jumps to [v6_final]. *)
Fixpoint v6_loop (fuel : nat) (i : str) (h16_count : nat) (is_omitted : bool) : vres :=
  match fuel with
  | O => Panic
  | S fuel =>
      if is_empty i then v6_final h16_count is_omitted
      else
        do (rest, part) <- split_v6_addr_part i ;
        let next h16_count is_omitted :=
          if Nat.ltb 8 h16_count then Err InvalidHost
          else v6_loop fuel rest h16_count is_omitted in
        match part with
        | H16Omit =>
            if is_omitted then Err InvalidHost else next (h16_count + 1)%nat true
        | H16Cont =>
            if is_empty rest then Err InvalidHost else next (h16_count + 1)%nat is_omitted
        | H16End => v6_final (h16_count + 1) is_omitted
        | V4 => v6_final (h16_count + 2) is_omitted
        | Omit => if is_omitted then Err InvalidHost else next h16_count true
        end
  end.

(** validate/authority.rs:123-174 *)
Definition validate_ipv6address (i : str) : vres :=
  v6_loop (S (List.length i)) i 0 false.

(** validate/authority.rs:203-249 *)
Definition validate_host (S : Spec) (i : str) : vres :=
  match get_wrapped_inner i LBRACK RBRACK with
  | Some maybe_addr =>
      match (match strip_ascii_char_prefix maybe_addr 118 with
             | Some r => Some r
             | None => strip_ascii_char_prefix maybe_addr 86
             end) with
      | Some maybe_addr_rest =>
          match find_split_hole maybe_addr_rest DOT with
          | None => Err InvalidHost
          | Some (maybe_ver, maybe_addr) =>
              if is_empty maybe_ver || negb (forallb is_hexdigit maybe_ver) then Err InvalidHost
              else check (negb (is_empty maybe_addr) && all_ascii maybe_addr
                          && forallb is_ascii_userinfo_ipvfutureaddr maybe_addr) InvalidHost
          end
      | None => validate_ipv6address maybe_addr
      end
  | None =>
      check (satisfy_chars_with_pct_encoded is_ascii_regname (is_nonascii_regname S) i) InvalidHost
  end.

(** validate/authority.rs:177-200 *)
Definition validate_authority (S : Spec) (i : str) : vres :=
  do i <- match find_split_hole i AT with
          | Some (maybe_userinfo, i) => validate_userinfo S maybe_userinfo ;; Ok i
          | None => Ok i
          end ;
  let maybe_host :=
    match rfind_split_hole i COLON with
    | Some (maybe_host, maybe_port) =>
        if forallb is_digit maybe_port then maybe_host else i
    | None => i
    end in
  validate_host S maybe_host.

(** trusted/authority.rs:46-83 [is_host_reg_name]; [len()] is the byte length. *)
Definition is_host_reg_name (host : str) : bool :=
  if starts_with [LBRACK] host then false
  else if negb (Nat.leb 7 (blen host) && Nat.leb (blen host) 15) then true
  else match find_split_hole host DOT with
       | None => true
       | Some (o0, rest) =>
           match find_split_hole rest DOT with
           | None => true
           | Some (o1, rest) =>
               match find_split_hole rest DOT with
               | None => true
               | Some (o2, o3) =>
                   negb (is_dec_octet o0 && is_dec_octet o1 && is_dec_octet o2 && is_dec_octet o3)
               end
           end
       end.

(** validate/authority.rs:252-263 *)
Definition validate_reg_name (S : Spec) (i : str) : vres :=
  check (satisfy_chars_with_pct_encoded is_ascii_regname (is_nonascii_regname S) i
         && is_host_reg_name i) InvalidRegName.

(** *** src/parser/validate/path.rs *)

Definition path_chars_ok (S : Spec) (i : str) : bool :=
  satisfy_chars_with_pct_encoded is_ascii_pchar_slash (is_nonascii_char_unreserved S) i.

(** path.rs:9-27 *)
Definition validate_path_abempty (S : Spec) (i : str) : vres :=
  if is_empty i then Ok tt
  else match strip_prefix [SLASH] i with
       | Some rest => check (path_chars_ok S rest) InvalidPath
       | None => Err InvalidPath
       end.

(** path.rs:31-49; the [unreachable!] is a [Panic]. *)
Definition validate_path_absolute_authority_absent (S : Spec) (i : str) : vres :=
  if is_empty i then Ok tt
  else if starts_with [SLASH; SLASH] i then Panic
  else check (path_chars_ok S i) InvalidPath.

(** path.rs:53-74; the [unreachable!] is a [Panic]. *)
Definition validate_path_relative_authority_absent (S : Spec) (i : str) : vres :=
  if starts_with [SLASH; SLASH] i then Panic
  else match find_split2_hole i SLASH COLON with
       | None => check (path_chars_ok S i) InvalidPath
       | Some (_, c, _) =>
           if c =? SLASH then check (path_chars_ok S i) InvalidPath else Err InvalidPath
       end.

(** path.rs:77-88 *)
Definition validate_path (S : Spec) (i : str) : vres := check (path_chars_ok S i) InvalidPath.

(** path.rs:91-99 *)
Definition validate_path_segment (S : Spec) (i : str) : vres :=
  check (satisfy_chars_with_pct_encoded is_ascii_pchar (is_nonascii_char_unreserved S) i)
        InvalidPath.

(** *** src/parser/validate.rs, composite rules *)

(** validate.rs:49-56 *)
Definition validate_authority_path_abempty (S : Spec) (i : str) : vres :=
  let '(maybe_authority, maybe_path) :=
    match find_split i SLASH with Some v => v | None => (i, []) end in
  validate_authority S maybe_authority ;;
  validate_path_abempty S maybe_path.

(** validate.rs:78-91 *)
Inductive UriReferenceRule := RAbsolute | RAbsoluteWithoutFragment | RAny.
(** validate.rs:97-99 *)
Definition is_relative_allowed (r : UriReferenceRule) : bool :=
  match r with RAny => true | _ => false end.
(** validate.rs:104-106 *)
Definition is_fragment_allowed (r : UriReferenceRule) : bool :=
  match r with RAbsolute | RAny => true | _ => false end.

(** validate.rs:196-211 *)
Definition validate_after_path (S : Spec) (first : N) (rest : str) (accept_fragment : bool)
  : vres :=
  let '(maybe_query, maybe_fragment) :=
    if first =? QMARK then
      match find_split_hole rest HASH with Some v => v | None => (rest, []) end
    else ([], rest) in
  validate_query S maybe_query ;;
  if negb accept_fragment && negb (is_empty maybe_fragment) then Err UnexpectedFragment
  else validate_fragment S maybe_fragment.

(** validate.rs:138-161 and 168-191 share their shape; [path_v] is the validator used when the
    authority is absent. *)
Definition validate_after_scheme (S : Spec) (path_v : str -> vres) (accept_fragment : bool)
  (i : str) : vres :=
  do after_path <-
    match strip_prefix [SLASH; SLASH] i with
    | Some i =>
        match find_split2_hole i QMARK HASH with
        | Some (ap, c, rest) => validate_authority_path_abempty S ap ;; Ok (Some (c, rest))
        | None => validate_authority_path_abempty S i ;; Ok None
        end
    | None =>
        match find_split2_hole i QMARK HASH with
        | Some (p, c, rest) => path_v p ;; Ok (Some (c, rest))
        | None => path_v i ;; Ok None
        end
    end ;
  match after_path with
  | Some (first, rest) => validate_after_path S first rest accept_fragment
  | None => Ok tt
  end.

(** validate.rs:166-193 *)
Definition validate_relative_ref (S : Spec) (i : str) : vres :=
  validate_after_scheme S (validate_path_relative_authority_absent S) true i.

(** validate.rs:110-163 *)
Definition validate_uri_reference_common (S : Spec) (i : str) (rule : UriReferenceRule) : vres :=
  match find_split_hole i COLON with
  | None =>
      if is_relative_allowed rule then validate_relative_ref S i else Err UnexpectedRelative
  | Some (maybe_scheme, rest) =>
      if is_err (validate_scheme maybe_scheme) then
        if is_relative_allowed rule then validate_relative_ref S i else Err InvalidScheme
      else validate_after_scheme S (validate_path_absolute_authority_absent S)
             (is_fragment_allowed rule) rest
  end.

(** validate.rs:60-62, 66-68, 72-74 *)
Definition validate_uri (S : Spec) (i : str) := validate_uri_reference_common S i RAbsolute.
Definition validate_uri_reference (S : Spec) (i : str) := validate_uri_reference_common S i RAny.
Definition validate_absolute_uri (S : Spec) (i : str) :=
  validate_uri_reference_common S i RAbsoluteWithoutFragment.
