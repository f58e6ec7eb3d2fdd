(** * The validators with a counter of the characters they look at.
    The counted unit is one character looked at by one pass: by a search, by a check of all the characters of a string, or by a
    pattern at the start or the end of it.  The functions follow MValidate.v, MTemplate.v and MTrusted.v line by line and return the
    same (C84_same). *)
From Verif Require Import Base Chars Utf8 MValidate MTrusted MFormat MSearch MPct MEncode MTemplate.
Open Scope nat_scope.

Definition K (A : Type) : Type := A * nat.
Definition kret {A} (a : A) : K A := (a, 0).
Definition kbind {A B} (x : K A) (f : A -> K B) : K B := let r := f (fst x) in (fst r, snd x + snd r).
Notation "'kdo' p <- x ; y" := (kbind x (fun p => y)) (at level 200, p pattern, x at level 100, y at level 200).
(** What follows an error or a panic is not executed. *)
Definition kand {E A B} (x : K (res E A)) (f : A -> K (res E B)) : K (res E B) :=
  match fst x with
  | Ok a => let r := f a in (fst r, snd x + snd r)
  | Err e => (Err e, snd x)
  | Panic => (Panic, snd x)
  end.
Notation "'rdo' p <- x ; y" := (kand x (fun p => y)) (at level 200, p pattern, x at level 100, y at level 200).

(** ** Searching and checking *)
(** How many characters a search from the start looks at: up to the first hit. *)
Fixpoint count_first (p : N -> bool) (s : str) : nat :=
  match s with [] => 0 | c :: r => if p c then 1 else 1 + count_first p r end.
(** [memchr], [memchr2], [memchr3], [position] and [memrchr]. *)
Definition k_first (p : N -> bool) (s : str) : K (option (str * N * str)) := (split_first p s, count_first p s).
Definition k_last (p : N -> bool) (s : str) : K (option (str * N * str)) := (split_last p s, count_first p (rev s)).
(** [Iterator::all] stops at the first character that fails. *)
Definition k_all (p : N -> bool) (s : str) : K bool := (forallb p s, count_first (fun c => negb (p c)) s).
Definition k_position (p : N -> bool) (s : str) : K (option nat) := (position p s, count_first p s).
(** str.rs:305-335 *)
Fixpoint k_satisfy (pa pn : N -> bool) (s : str) : K bool :=
  match s with
  | [] => kret true
  | c :: r =>
      if is_ascii c then
        if (c =? PCT)%N then
          match r with
          | u :: r1 =>
              if is_hexdigit u then
                match r1 with
                | l :: r2 => if is_hexdigit l then kdo b <- k_satisfy pa pn r2 ; (b, 3) else (false, 3)
                | [] => (false, 2)
                end
              else (false, 2)
          | [] => (false, 1)
          end
        else if pa c then kdo b <- k_satisfy pa pn r ; (b, 1) else (false, 1)
      else if pn c then kdo b <- k_satisfy pa pn r ; (b, 1) else (false, 1)
  end.
(** str.rs:14-24, 366-373, core [str::strip_prefix], [str::starts_with]. *)
Definition k_wrapped_inner (s : str) (o c : N) : K (option str) := (get_wrapped_inner s o c, 2).
Definition k_strip_char (s : str) (p : N) : K (option str) := (strip_ascii_char_prefix s p, 1).
Definition k_strip (p s : str) : K (option str) := (strip_prefix p s, length p).
Definition k_starts (p s : str) : K bool := (starts_with p s, length p).
(** str.rs:66-71, 161-173, 195-210, 286-291 *)
Definition k_find_split (s : str) (n : N) : K (option (str * str)) :=
  kdo o <- k_first (N.eqb n) s ; kret (match o with Some (a, c, b) => Some (a, c :: b) | None => None end).
Definition k_find_split_hole (s : str) (n : N) : K (option (str * str)) :=
  kdo o <- k_first (N.eqb n) s ; kret (match o with Some (a, _, b) => Some (a, b) | None => None end).
Definition k_find_split2_hole (s : str) (n1 n2 : N) : K (option (str * N * str)) :=
  k_first (fun c => (c =? n1)%N || (c =? n2)%N) s.
Definition k_rfind_split_hole (s : str) (n : N) : K (option (str * str)) :=
  kdo o <- k_last (N.eqb n) s ; kret (match o with Some (a, _, b) => Some (a, b) | None => None end).
(** authority.rs:32-41: a slice pattern of one to three bytes. *)
Definition k_dec_octet (i : str) : K bool := (is_dec_octet i, Nat.min (length i) 3).

(** ** src/parser/validate.rs *)
Definition k_check (x : K bool) (k : ErrorKind) : K vres := (check (fst x) k, snd x).
(** validate.rs:23-35 *)
Definition k_scheme (i : str) : K vres :=
  k_check (match i with
           | [] => kret false
           | c :: r => if is_alpha c then kdo b <- k_all (fun b => is_ascii b && is_ascii_scheme_continue b) r ; (b, 1) else (false, 1)
           end) InvalidScheme.
(** validate.rs:38-46, 214-225, authority.rs:15-26 *)
Definition k_query (S : Spec) (i : str) : K vres := k_check (k_satisfy is_ascii_frag_query (is_nonascii_query S) i) InvalidQuery.
Definition k_fragment (S : Spec) (i : str) : K vres := k_check (k_satisfy is_ascii_frag_query (is_nonascii_fragment S) i) InvalidFragment.
Definition k_userinfo (S : Spec) (i : str) : K vres :=
  k_check (k_satisfy is_ascii_userinfo_ipvfutureaddr (is_nonascii_userinfo S) i) InvalidUserInfo.
(** authority.rs:44-64 *)
Definition k_ipv4address (i : str) : K vres :=
  kdo o <- k_find_split_hole i DOT ;
  match o with
  | None => kret (Err InvalidHost)
  | Some (first, rest) =>
      kdo b <- k_dec_octet first ;
      if negb b then kret (Err InvalidHost) else
      kdo o <- k_find_split_hole rest DOT ;
      match o with
      | None => kret (Err InvalidHost)
      | Some (second, rest) =>
          kdo b <- k_dec_octet second ;
          if negb b then kret (Err InvalidHost) else
          kdo o <- k_find_split_hole rest DOT ;
          match o with
          | None => kret (Err InvalidHost)
          | Some (third, fourth) =>
              kdo b <- k_dec_octet third ;
              if negb b then kret (Err InvalidHost) else
              kdo b <- k_dec_octet fourth ;
              kret (if b then Ok tt else Err InvalidHost)
          end
      end
  end.
(** authority.rs:82-120 *)
Definition k_split_v6_addr_part (i : str) : K (res ErrorKind (str * V6AddrPart)) :=
  kdo o <- k_find_split_hole i COLON ;
  match o with
  | Some (prefix, rest) =>
      if Nat.leb 5 (blen prefix) then kret (Err InvalidHost)
      else if is_empty prefix then
        kdo o <- k_strip_char rest COLON ;
        kret match o with Some rest => Ok (rest, Omit) | None => Err InvalidHost end
      else
        kdo b <- k_all is_hexdigit prefix ;
        if negb b then kret (Err InvalidHost)
        else
          kdo o <- k_strip_char rest COLON ;
          kret match o with Some rest => Ok (rest, H16Omit) | None => Ok (rest, H16Cont) end
  | None =>
      if Nat.leb 5 (blen i) then rdo _ <- k_ipv4address i ; kret (Ok ([], V4))
      else kdo b <- k_all is_hexdigit i ; kret (if b then Ok ([], H16End) else Err InvalidHost)
  end.
(** authority.rs:126-163 *)
Fixpoint k_v6_loop (fuel : nat) (i : str) (h16_count : nat) (is_omitted : bool) : K vres :=
  match fuel with
  | O => kret Panic
  | S fuel =>
      if is_empty i then kret (v6_final h16_count is_omitted)
      else
        rdo (rest, part) <- k_split_v6_addr_part i ;
        let next h16_count is_omitted :=
          if Nat.ltb 8 h16_count then kret (Err InvalidHost) else k_v6_loop fuel rest h16_count is_omitted in
        match part with
        | H16Omit => if is_omitted then kret (Err InvalidHost) else next (h16_count + 1) true
        | H16Cont => if is_empty rest then kret (Err InvalidHost) else next (h16_count + 1) is_omitted
        | H16End => kret (v6_final (h16_count + 1) is_omitted)
        | V4 => kret (v6_final (h16_count + 2) is_omitted)
        | Omit => if is_omitted then kret (Err InvalidHost) else next h16_count true
        end
  end.
Definition k_ipv6address (i : str) : K vres := k_v6_loop (S (length i)) i 0 false.
(** authority.rs:203-249 *)
Definition k_host (S : Spec) (i : str) : K vres :=
  kdo o <- k_wrapped_inner i LBRACK RBRACK ;
  match o with
  | Some maybe_addr =>
      kdo o <- (kdo o <- k_strip_char maybe_addr 118 ;
                match o with Some r => kret (Some r) | None => k_strip_char maybe_addr 86 end) ;
      match o with
      | Some maybe_addr_rest =>
          kdo o <- k_find_split_hole maybe_addr_rest DOT ;
          match o with
          | None => kret (Err InvalidHost)
          | Some (maybe_ver, maybe_addr) =>
              if is_empty maybe_ver then kret (Err InvalidHost)
              else
                kdo b <- k_all is_hexdigit maybe_ver ;
                if negb b then kret (Err InvalidHost)
                else if is_empty maybe_addr then kret (Err InvalidHost)
                else
                  kdo b <- k_all is_ascii maybe_addr ;
                  if negb b then kret (Err InvalidHost)
                  else k_check (k_all is_ascii_userinfo_ipvfutureaddr maybe_addr) InvalidHost
          end
      | None => k_ipv6address maybe_addr
      end
  | None => k_check (k_satisfy is_ascii_regname (is_nonascii_regname S) i) InvalidHost
  end.
(** authority.rs:177-200 *)
Definition k_authority (S : Spec) (i : str) : K vres :=
  kdo o <- k_find_split_hole i AT ;
  rdo i <- match o with
           | Some (maybe_userinfo, i) => rdo _ <- k_userinfo S maybe_userinfo ; kret (Ok i)
           | None => kret (Ok i)
           end ;
  kdo o <- k_rfind_split_hole i COLON ;
  kdo maybe_host <- match o with
                    | Some (maybe_host, maybe_port) =>
                        kdo b <- k_all is_digit maybe_port ; kret (if b then maybe_host else i)
                    | None => kret i
                    end ;
  k_host S maybe_host.
(** path.rs:9-74 *)
Definition k_path_chars (S : Spec) (i : str) : K vres :=
  k_check (k_satisfy is_ascii_pchar_slash (is_nonascii_char_unreserved S) i) InvalidPath.
Definition k_path_abempty (S : Spec) (i : str) : K vres :=
  if is_empty i then kret (Ok tt)
  else kdo o <- k_strip [SLASH] i ;
       match o with Some rest => k_path_chars S rest | None => kret (Err InvalidPath) end.
Definition k_path_absolute_authority_absent (S : Spec) (i : str) : K vres :=
  if is_empty i then kret (Ok tt)
  else kdo b <- k_starts [SLASH; SLASH] i ;
       if b then kret Panic else k_path_chars S i.
Definition k_path_relative_authority_absent (S : Spec) (i : str) : K vres :=
  kdo b <- k_starts [SLASH; SLASH] i ;
  if b then kret Panic
  else kdo o <- k_find_split2_hole i SLASH COLON ;
       match o with
       | None => k_path_chars S i
       | Some (_, c, _) => if (c =? SLASH)%N then k_path_chars S i else kret (Err InvalidPath)
       end.
(** validate.rs:49-56 *)
Definition k_authority_path_abempty (S : Spec) (i : str) : K vres :=
  kdo o <- k_find_split i SLASH ;
  let '(maybe_authority, maybe_path) := match o with Some v => v | None => (i, []) end in
  rdo _ <- k_authority S maybe_authority ;
  k_path_abempty S maybe_path.
(** validate.rs:196-211 *)
Definition k_after_path (S : Spec) (first : N) (rest : str) (accept_fragment : bool) : K vres :=
  kdo (maybe_query, maybe_fragment) <-
    (if (first =? QMARK)%N then
       kdo o <- k_find_split_hole rest HASH ; kret (match o with Some v => v | None => (rest, []) end)
     else kret ([], rest)) ;
  rdo _ <- k_query S maybe_query ;
  if negb accept_fragment && negb (is_empty maybe_fragment) then kret (Err UnexpectedFragment)
  else k_fragment S maybe_fragment.
(** validate.rs:138-161, 168-191 *)
Definition k_after_scheme (S : Spec) (path_v : str -> K vres) (accept_fragment : bool) (i : str) : K vres :=
  kdo o <- k_strip [SLASH; SLASH] i ;
  rdo after_path <-
    match o with
    | Some i =>
        kdo o <- k_find_split2_hole i QMARK HASH ;
        match o with
        | Some (ap, c, rest) => rdo _ <- k_authority_path_abempty S ap ; kret (Ok (Some (c, rest)))
        | None => rdo _ <- k_authority_path_abempty S i ; kret (Ok None)
        end
    | None =>
        kdo o <- k_find_split2_hole i QMARK HASH ;
        match o with
        | Some (p, c, rest) => rdo _ <- path_v p ; kret (Ok (Some (c, rest)))
        | None => rdo _ <- path_v i ; kret (Ok None)
        end
    end ;
  match after_path with
  | Some (first, rest) => k_after_path S first rest accept_fragment
  | None => kret (Ok tt)
  end.
(** validate.rs:166-193 *)
Definition k_relative_ref (S : Spec) (i : str) : K vres :=
  k_after_scheme S (k_path_relative_authority_absent S) true i.
(** validate.rs:110-163 *)
Definition k_uri_reference_common (S : Spec) (i : str) (rule : UriReferenceRule) : K vres :=
  kdo o <- k_find_split_hole i COLON ;
  match o with
  | None => if is_relative_allowed rule then k_relative_ref S i else kret (Err UnexpectedRelative)
  | Some (maybe_scheme, rest) =>
      kdo r <- k_scheme maybe_scheme ;
      if is_err r then
        if is_relative_allowed rule then k_relative_ref S i else kret (Err InvalidScheme)
      else k_after_scheme S (k_path_absolute_authority_absent S) (is_fragment_allowed rule) rest
  end.
(** src/validate.rs and the string types *)
Definition k_validate (S : Spec) (t : ty) (s : str) : K vres :=
  match t with
  | TAbsolute => k_uri_reference_common S s RAbsoluteWithoutFragment
  | TIri => k_uri_reference_common S s RAbsolute
  | TReference => k_uri_reference_common S s RAny
  | TRelative => k_relative_ref S s
  | TQuery => k_query S s
  | TFragment => k_fragment S s
  end.

(** ** src/template/parser/validate.rs *)
(** template/parser/validate.rs:14-22 *)
Definition k_literal (s : str) (offset : nat) : K (tres unit) :=
  kdo o <- k_position (fun c => negb (is_ascii c) || negb (is_ascii_literal_char c)) s ;
  kret match o with Some pos => terr InvalidCharacter (offset + pos) | None => Ok tt end.
(** template/parser/validate.rs:58-69: the start is looked at once for "%" and its digits and once for a varchar. *)
Definition k_varname (s : str) (offset : nat) : K (tres unit) :=
  rdo rest <- (match utf8s s with
               | [] => terr InvalidExpression offset
               | b :: bs =>
                   if (b =? PCT)%N && starts_with_double_hexdigits bs then tlift (str_from s 3)
                   else if is_ascii b && is_ascii_varchar_start b then tlift (str_from s 1)
                   else terr InvalidExpression offset
               end, Nat.min (length (utf8s s)) 3) ;
  kdo b <- k_satisfy is_ascii_varchar_continue (fun _ => false) rest ;
  kret (if b then Ok tt else terr InvalidExpression offset).
(** template/parser/validate.rs:25-55 *)
Definition k_varspec (s : str) (offset : nat) : K (tres unit) :=
  kdo o <- k_find_split2_hole s COLON STAR ;
  match o with
  | Some (maybe_varname, sep, rest) =>
      if (sep =? COLON)%N then
        rdo _ <- k_varname maybe_varname offset ;
        (if negb (Nat.leb 1 (blen rest) && Nat.leb (blen rest) 5) then
           kret (terr InvalidExpression (offset + blen maybe_varname + 2))
         else
           kdo o <- k_position (fun b => negb (is_digit b)) (utf8s rest) ;
           kret match o with
                | Some pos => terr InvalidExpression (offset + blen maybe_varname + 2 + pos)
                | None => Ok tt
                end)
      else if (sep =? STAR)%N then
        rdo _ <- k_varname maybe_varname offset ;
        kret (if negb (is_empty rest) then terr InvalidExpression (offset + blen maybe_varname + 1) else Ok tt)
      else kret Panic
  | None => k_varname s offset
  end.
(** template/parser/validate.rs:91-99: [split] looks at the characters of the piece and at the comma after it. *)
Fixpoint k_varspecs (spec_i : nat) (specs : list str) (offset : nat) : K (tres unit) :=
  match specs with
  | [] => kret (Ok tt)
  | v :: r =>
      let offset := (if Nat.eqb spec_i 0 then offset else offset + 1) in
      kdo _ <- (tt, length v + 1) ;
      rdo _ <- k_varspec v offset ;
      k_varspecs (S spec_i) r (offset + blen v)
  end.
(** template/parser/validate.rs:74-102 *)
Definition k_expr_body (s : str) (offset : nat) : K (tres unit) :=
  match utf8s s with
  | [] => kret (terr InvalidExpression offset)
  | b :: _ =>
      kdo o <- (MaybeOperator_from_byte b, 1) ;
      match o with
      | Some (OpWorking _) =>
          rdo vars <- kret (tlift (str_from s 1)) ;
          k_varspecs 0 (split_on (N.eqb COMMA) vars) (offset + 1)
      | Some OpForFuture => kret (terr UnsupportedOperator offset)
      | None => k_varspecs 0 (split_on (N.eqb COMMA) s) offset
      end
  end.
(** template/parser/validate.rs:107-161 *)
Fixpoint k_template_loop (fuel : nat) (s rest : str) (offset : nat) : K (tres unit) :=
  match fuel with
  | O => kret Panic
  | S fuel =>
      if is_empty rest then kret (Ok tt) else
      kdo o <- k_find_split2_hole rest PCT LBRACE ;
      match o with
      | Some (literal, sep, after) =>
          rdo rest <- (if (sep =? PCT)%N then
              rdo _ <- k_literal literal offset ;
              (if Nat.ltb (blen after) 2 then kret (terr InvalidPercentEncoding (offset + blen literal))
               else
                rdo (xdigits2, new_rest) <- kret (tlift (str_split_at after 2)) ;
                rdo x0 <- (tlift (byte_at (utf8s xdigits2) 0), 1) ;
                (if negb (is_hexdigit x0) then kret (terr InvalidPercentEncoding (offset + blen literal + 1))
                 else
                  rdo x1 <- (tlift (byte_at (utf8s xdigits2) 1), 1) ;
                  (if negb (is_hexdigit x1) then kret (terr InvalidPercentEncoding (offset + blen literal + 2))
                   else kret (Ok new_rest))))
            else if (sep =? LBRACE)%N then
              rdo _ <- k_literal literal offset ;
              kdo o <- k_find_split_hole after RBRACE ;
              match o with
              | None => kret (terr ExpressionNotClosed (offset + blen literal))
              | Some (expr, new_rest) =>
                  rdo _ <- k_expr_body expr (offset + blen literal + 1) ; kret (Ok new_rest)
              end
            else kret Panic) ;
          k_template_loop fuel s rest (blen s - blen rest)
      | None => k_literal rest offset
      end
  end.
Definition k_template (s : str) : K (tres unit) := k_template_loop (1 + length s) s s 0.

(** ** src/parser/trusted.rs: reading the components; slicing at a known place is not counted. *)
(** str.rs:87-139, 236-279 *)
Definition k_find_split2 (s : str) (n1 n2 : N) : K (option (str * str)) :=
  kdo o <- k_first (fun c => (c =? n1)%N || (c =? n2)%N) s ; kret (match o with Some (a, c, b) => Some (a, c :: b) | None => None end).
Definition k_find_split3 (s : str) (n1 n2 n3 : N) : K (option (str * str)) :=
  kdo o <- k_first (fun c => (c =? n1)%N || (c =? n2)%N || (c =? n3)%N) s ;
  kret (match o with Some (a, c, b) => Some (a, c :: b) | None => None end).
Definition k_find_split4_hole (s : str) (n1 n2 n3 n4 : N) : K (option (str * N * str)) :=
  k_first (fun c => (c =? n1)%N || (c =? n2)%N || (c =? n3)%N || (c =? n4)%N) s.
Definition k_rfind_split2 (s : str) (n1 n2 : N) : K (option (str * str)) :=
  kdo o <- k_last (fun c => (c =? n1)%N || (c =? n2)%N) s ; kret (match o with Some (a, c, b) => Some (a, c :: b) | None => None end).
(** trusted.rs:22-66 *)
Definition k_scheme_colon (i : str) : K (may (str * str)) :=
  kdo o <- k_find_split_hole i COLON ; kret (match o with Some (scheme, rest) => Ok (rest, scheme) | None => Panic end).
Definition k_scheme_colon_opt (i : str) : K (str * option str) :=
  kdo o <- k_find_split4_hole i COLON SLASH QMARK HASH ;
  kret match o with
       | Some (scheme, c, rest) => if (c =? COLON)%N then (rest, Some scheme) else (i, None)
       | None => (i, None)
       end.
Definition k_slash_slash_authority_opt (i : str) : K (str * option str) :=
  kdo o <- k_strip [SLASH; SLASH] i ;
  match o with
  | None => kret (i, None)
  | Some s =>
      kdo o <- k_find_split3 s SLASH QMARK HASH ;
      kret match o with Some (authority, rest) => (rest, Some authority) | None => ([], Some s) end
  end.
Definition k_until_query (i : str) : K (str * str) :=
  kdo o <- k_find_split2 i QMARK HASH ; kret match o with Some (before, rest) => (rest, before) | None => ([], i) end.
(** trusted.rs:72-87 *)
Definition k_query_and_fragment (i : str) : K (may (option str * option str)) :=
  kdo _ <- (tt, 1) ;
  match i with
  | [] => kret (Ok (None, None))
  | c :: rest =>
      if (c =? QMARK)%N then
        kdo o <- k_find_split_hole rest HASH ; kret match o with Some (q, f) => Ok (Some q, Some f) | None => Ok (Some rest, None) end
      else kret (if (c =? HASH)%N then Ok (None, Some rest) else Panic)
  end.
(** trusted.rs:95-129 *)
Definition k_decompose (i0 : str) : K (may Splitter) :=
  let len := length i0 in
  kdo (i1, sch) <- k_scheme_colon_opt i0 ;
  let scheme_end := match sch with Some s => nonzero (length s) | None => None end in
  let start := len - length i1 + 2 in
  kdo (i2, auth) <- k_slash_slash_authority_opt i1 ;
  let authority_end := match auth with Some s => nonzero (start + length s) | None => None end in
  kdo (i3, _) <- k_until_query i2 ;
  let after_first_prefix := nonzero (len - length i3 + 1) in
  rdo (q, f) <- k_query_and_fragment i3 ;
  let '(query_start, fragment_start) :=
    match q, f with
    | Some _, Some f => (after_first_prefix, nonzero (len - length f))
    | Some _, None => (after_first_prefix, None)
    | None, Some _ => (None, after_first_prefix)
    | None, None => (None, None)
    end in
  kret (Ok (mkSplitter scheme_end authority_end query_start fragment_start)).
(** components.rs:214-224 *)
Definition k_to_major (i : str) : K (may (option str * option str * str * option str * option str)) :=
  rdo sp <- k_decompose i ; kret (split_into_major sp i).
(** The accessors of the string types; trusted.rs:144-327. *)
Definition k_scheme_str (t : ty) (i : str) : K (may (option str)) :=
  match t with
  | TAbsolute | TIri => rdo (_, s) <- k_scheme_colon i ; kret (Ok (Some s))
  | TReference => kdo (_, s) <- k_scheme_colon_opt i ; kret (Ok s)
  | _ => kret (Ok None)
  end.
Definition k_authority_str (t : ty) (i : str) : K (may (option str)) :=
  match t with
  | TAbsolute | TIri => rdo (r, _) <- k_scheme_colon i ; kdo (_, a) <- k_slash_slash_authority_opt r ; kret (Ok a)
  | TReference => kdo (r, _) <- k_scheme_colon_opt i ; kdo (_, a) <- k_slash_slash_authority_opt r ; kret (Ok a)
  | TRelative => kdo (_, a) <- k_slash_slash_authority_opt i ; kret (Ok a)
  | _ => kret (Ok None)
  end.
Definition k_path_str (t : ty) (i : str) : K (may str) :=
  let path r := kdo (r, _) <- k_slash_slash_authority_opt r ; kdo (_, p) <- k_until_query r ; kret (Ok p) in
  match t with
  | TAbsolute | TIri => rdo (r, _) <- k_scheme_colon i ; path r
  | TReference => kdo (r, _) <- k_scheme_colon_opt i ; path r
  | TRelative => path i
  | _ => kret (Ok i)
  end.
Definition k_query_str (debug : bool) (t : ty) (i : str) : K (may (option str)) :=
  match t with
  | TAbsolute =>
      kdo (r, _) <- k_until_query i ;
      kret match r with
           | [] => Ok None
           | c :: r => if debug && negb (c =? QMARK)%N then Panic else Ok (Some r)
           end
  | TIri | TReference | TRelative => kdo (r, _) <- k_until_query i ; rdo (q, _) <- k_query_and_fragment r ; kret (Ok q)
  | _ => kret (Ok None)
  end.
Definition k_fragment_str (t : ty) (i : str) : K (may (option str)) :=
  match t with
  | TIri | TReference | TRelative => kdo o <- k_find_split_hole i HASH ; kret (Ok match o with Some (_, f) => Some f | None => None end)
  | _ => kret (Ok None)
  end.
(** trusted/authority.rs:15-32 *)
Definition k_decompose_authority (authority : str) : K AuthorityComponents :=
  kdo o <- k_find_split_hole authority AT ;
  let '(i, hs) := match o with Some (u, rest) => (rest, length u + 1) | None => (authority, 0) end in
  kdo o <- k_rfind_split2 i COLON RBRACK ;
  let colon_port_len := match o with Some (_, suffix) => if starts_with [COLON] suffix then length suffix else 0 | None => 0 end in
  kret (mkAuth authority hs (length authority - colon_port_len)).
