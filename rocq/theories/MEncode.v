(** * Model of src/percent_encode.rs, src/percent_encode/decode.rs and src/convert.rs. *)
From Verif Require Import Base Chars Utf8 MValidate MTrusted MFormat MWriters MPct.

(** ** src/percent_encode.rs *)
(** percent_encode.rs:24-48 *)
Inductive Context := CRegName | CUserOrPassword | CPathSegment | CPath | CQuery | CFragment | CUnreserve | CCharacter.

(** percent_encode.rs:342-367: [is_valid_char]. *)
Definition is_valid_char (S : Spec) (ctx : Context) (c : N) : bool :=
  match ctx, is_ascii c with
  | CRegName, true => is_ascii_regname c
  | CRegName, false => is_nonascii_regname S c
  | CUserOrPassword, true => negb (c =? COLON) && is_ascii_userinfo_ipvfutureaddr c
  | CUserOrPassword, false => is_nonascii_userinfo S c
  | CPathSegment, true => is_ascii_pchar c
  | CPathSegment, false => is_nonascii_char_unreserved S c
  | CPath, true => (c =? SLASH) || is_ascii_pchar c
  | CPath, false => is_nonascii_char_unreserved S c
  | CQuery, true => (c =? SLASH) || is_ascii_frag_query c
  | CQuery, false => is_nonascii_query S c
  | CFragment, true => (c =? SLASH) || is_ascii_frag_query c
  | CFragment, false => is_nonascii_fragment S c
  | CUnreserve, true => is_ascii_unreserved c
  | CUnreserve, false => is_nonascii_char_unreserved S c
  | CCharacter, true => is_ascii_unreserved_or_reserved c
  | CCharacter, false => is_nonascii_char_unreserved S c || is_nonascii_char_private S c
  end.
(** percent_encode.rs:380-386 [write_pct_encoded_char].  Simplification: one chunk per byte ([write!] with
    ["%{:02X}"] hands the percent sign and the digits over separately). *)
Definition pct_encoded_char (c : N) : list str := map pct_upper (utf8 c).
(** percent_encode.rs:341-373 [Filter::write_char]: the chunks given to the underlying writer. *)
Definition filter_char (S : Spec) (ctx : Context) (c : N) : list str :=
  if is_valid_char S ctx c then [[c]] else pct_encoded_char c.
(** percent_encode.rs:338-340 [Filter::write_str] *)
Definition filter_str (S : Spec) (ctx : Context) (s : str) : list str := flat_map (filter_char S ctx) s.
(** percent_encode.rs:326-383 [<PercentEncoded as Display>::fmt] for a raw value [d]. *)
Definition PercentEncoded {A} (S : Spec) (ctx : Context) (d : W A) : W A :=
  (flat_map (filter_str S ctx) (fst d), snd d).

(** ** src/percent_encode/decode.rs *)
(** parser/str.rs:339-344 and 348-359 *)
Definition starts_with_double_hexdigits (s : list N) : bool :=
  match s with x :: y :: _ => is_hexdigit x && is_hexdigit y | _ => false end.
Definition strip_decode_xdigits2 (s : list N) : may (option N * list N) :=
  if starts_with_double_hexdigits s then
    do (decoded, rest) <- take_xdigits2 s ; Ok (Some decoded, rest)
  else Ok (None, s).
(** decode.rs:84-108 [try_non_allocating_decode] *)
Fixpoint non_allocating_loop (fuel : nat) (rest : list N) : may (option (nat * N * list N)) :=
  match fuel with
  | O => Panic
  | S fuel =>
      if is_empty rest then Ok None else
      match find_split_hole rest PCT with
      | None => Ok None
      | Some (before, after_pct) =>
          do (decoded, rest) <- strip_decode_xdigits2 after_pct ;
          match decoded with
          | Some d => Ok (Some (length before, d, rest))
          | None => non_allocating_loop fuel after_pct
          end
      end
  end.
Definition try_non_allocating_decode (b : list N) : may (option (nat * N * list N)) :=
  non_allocating_loop (1 + length b) b.
(** decode.rs:123-130 *)
Definition to_bytes (b : list N) : may (option (list N)) :=
  do r <- try_non_allocating_decode b ; Ok (match r with None => Some b | Some _ => None end).
(** decode.rs:158-171: the loop of [into_bytes]. *)
Fixpoint into_bytes_loop (fuel : nat) (result rest : list N) : may (list N) :=
  match fuel with
  | O => Panic
  | S fuel =>
      if is_empty rest then Ok result else
      match find_split_hole rest PCT with
      | None => Ok (result ++ rest)
      | Some (no_pct, after_pct) =>
          do (decoded, rest) <- strip_decode_xdigits2 after_pct ;
          into_bytes_loop fuel
            (result ++ no_pct ++ match decoded with Some d => [d] | None => [] end) rest
      end
  end.
(** decode.rs:147-174 [into_bytes] *)
Definition into_bytes (b : list N) : may (list N) :=
  do r <- try_non_allocating_decode b ;
  match r with
  | None => Ok b
  | Some (prefix_len, decoded, rest) =>
      do prefix <- slice_p b 0 prefix_len ;
      into_bytes_loop (1 + length rest) (prefix ++ [decoded]) rest
  end.
(** decode.rs:239-246, 293-327 [PercentDecodedBytesFragments]: the iterator state is [rest]. *)
Inductive DecodedFragment := Direct (b : list N) | DecodedByte (d : N) | StrayPercent.
Definition fragments_next (rest : list N) : may (option (DecodedFragment * list N)) :=
  match rest with
  | [] => Ok None
  | c :: after =>
      if c =? PCT then
        do (decoded, rest) <- strip_decode_xdigits2 after ;
        match decoded with
        | Some d => Ok (Some (DecodedByte d, rest))
        | None => Ok (Some (StrayPercent, after))
        end
      else
        match split_first (N.eqb PCT) after with
        | None => Ok (Some (Direct rest, []))
        | Some (before, pct, tail) => Ok (Some (Direct (c :: before), pct :: tail))
        end
  end.
(** [collect()] *)
Fixpoint fragments_collect (fuel : nat) (rest : list N) : may (list DecodedFragment) :=
  match fuel with
  | O => Panic
  | S fuel =>
      do r <- fragments_next rest ;
      match r with
      | None => Ok []
      | Some (f, rest) => do fs <- fragments_collect fuel rest ; Ok (f :: fs)
      end
  end.
Definition bytes_fragments (b : list N) : may (list DecodedFragment) := fragments_collect (1 + length b) b.

(** core: [str::from_utf8] / [String::from_utf8] ([None] is the error).  The candidate scalar value
    is computed from the lead byte and checked by re-encoding. *)
Definition utf8_candidate (b : list N) : N :=
  match b with
  | a :: b1 :: b2 :: b3 :: _ =>
      if a <? 128 then a
      else if a <? 224 then (a - 192) * 64 + (b1 - 128)
      else if a <? 240 then (a - 224) * 4096 + (b1 - 128) * 64 + (b2 - 128)
      else (a - 240) * 262144 + (b1 - 128) * 4096 + (b2 - 128) * 64 + (b3 - 128)
  | a :: b1 :: b2 :: _ =>
      if a <? 128 then a
      else if a <? 224 then (a - 192) * 64 + (b1 - 128)
      else (a - 224) * 4096 + (b1 - 128) * 64 + (b2 - 128)
  | a :: b1 :: _ => if a <? 128 then a else (a - 192) * 64 + (b1 - 128)
  | a :: _ => a
  | [] => 0
  end.
Fixpoint from_utf8_loop (fuel : nat) (b : list N) : option str :=
  match fuel with
  | O => None
  | S fuel =>
      match b with
      | [] => Some []
      | _ =>
          let c := utf8_candidate b in
          if is_scalar c then
            match strip_prefix (utf8 c) b with
            | Some r => match from_utf8_loop fuel r with Some s => Some (c :: s) | None => None end
            | None => None
            end
          else None
      end
  end.
Definition from_utf8 (b : list N) : option str := from_utf8_loop (1 + length b) b.
(** decode.rs:193-195 [into_string]: [Ok None] is the [FromUtf8Error]. *)
Definition into_string (b : list N) : may (option str) := do r <- into_bytes b ; Ok (from_utf8 r).

(** ** src/convert.rs *)
(** convert.rs:23 *)
Definition HEXDIGITS : list N := lit "0123456789ABCDEF".
Definition hexdigit_at (i : N) : may N :=
  match nth_error HEXDIGITS (N.to_nat i) with Some d => Ok d | None => Panic end.
(** convert.rs:171-201 [fill_by_percent_encoded]: the new buffer and the bytes not consumed; the
    filled text is the prefix of three bytes per consumed byte.  The [debug_assert_eq] on [dest[0]]
    is a panic. *)
Fixpoint fill (buf bytes : list N) : may (list N * list N) :=
  match buf, bytes with
  | d0 :: d1 :: d2 :: buf', byte :: bytes' =>
      if d0 =? PCT then
        do h <- hexdigit_at (byte / 16) ;
        do l <- hexdigit_at (N.land byte 15) ;
        do (buf'', rest) <- fill buf' bytes' ;
        Ok (d0 :: h :: l :: buf'', rest)
      else Panic
  | _, _ => Ok (buf, bytes)
  end.
(** convert.rs:213-222: the loop *)
Fixpoint pct_encode_loop (fuel : nat) (buf bytes : list N) : W unit :=
  match fuel with
  | O => wpanic
  | S fuel =>
      match bytes with
      | [] => wret tt
      | _ =>
          wdo (buf', rest) <- lift (fill buf bytes) ;
          wdo filled <- lift (slice_p buf' 0 ((length bytes - length rest) * 3)) ;
          write filled >> pct_encode_loop fuel buf' rest
      end
  end.
(** convert.rs:159-222 [percent_encode_bytes] with a buffer of [len] bytes. *)
Definition percent_encode_bytes (len : nat) (s : str) : W unit :=
  if Nat.ltb len 3 then wpanic
  else pct_encode_loop (1 + length (utf8s s)) (repeat PCT (len / 3 * 3)) (utf8s s).
Definition NUM_BYTES_AT_ONCE := 21%nat.
(** convert.rs:113-151 [write_percent_encoded]; the byte positions found are those of the first
    non-ASCII (ASCII) character. *)
Definition split_pos (p : N -> bool) (s : str) : str * str :=
  match split_first p s with Some (a, c, b) => (a, c :: b) | None => (s, []) end.
Fixpoint wpe_loop (fuel : nat) (s : str) : W unit :=
  match fuel with
  | O => wpanic
  | S fuel =>
      if is_empty s then wret tt else
      let '(ascii, rest) := split_pos (fun c => negb (is_ascii c)) s in
      wdo s <- (if is_empty ascii then wret s else write ascii >> wret rest) ;
      if is_empty s then wret tt else
      let '(nonasciis, rest) := split_pos is_ascii s in
      if is_empty nonasciis then wpanic else
      percent_encode_bytes (NUM_BYTES_AT_ONCE * 3) nonasciis >> wpe_loop fuel rest
  end.
Definition write_percent_encoded (s : str) : W unit := wpe_loop (1 + length s) s.
(** convert.rs:64-103 [MappedToUri]: [to_string] and [to_dedicated_string] (target type [t]);
    types/iri.rs:105-107 [encode_to_uri]. *)
Definition MappedToUri (s : str) : W unit := write_percent_encoded s.
Definition mapped_to_dedicated_string (debug : bool) (t : ty) (s : str) : may str :=
  do u <- text (MappedToUri s) ; new_unchecked_justified debug UriSpec t u.

(** convert.rs:282-284 *)
Definition count_nonascii (b : list N) : nat := length (filter (fun x => negb (is_ascii x)) b).
(** [buf[i]] and [buf[i] = v] *)
Definition get_at (b : list N) (i : nat) : may N :=
  match nth_error b i with Some x => Ok x | None => Panic end.
Fixpoint set_at (b : list N) (i : nat) (v : N) : may (list N) :=
  match b, i with
  | [], _ => Panic
  | _ :: r, O => Ok (v :: r)
  | x :: r, S i => do r' <- set_at r i v ; Ok (x :: r')
  end.
(** checked [usize] subtraction *)
Definition sub_p (a b : nat) : may nat := if Nat.ltb a b then Panic else Ok (a - b)%nat.
(** convert.rs:251-270: the loop that fills the buffer from the tail. *)
Fixpoint inline_loop (fuel : nat) (buf : list N) (dest_end src_end rest_nonascii : nat) : may (list N) :=
  match rest_nonascii with
  | O => Ok buf
  | S rest' =>
      match fuel with
      | O => Panic
      | S fuel =>
          do src_end <- sub_p src_end 1 ;
          do dest_end <- sub_p dest_end 1 ;
          do byte <- get_at buf src_end ;
          if is_ascii byte then
            do buf <- set_at buf dest_end byte ;
            inline_loop fuel buf dest_end src_end rest_nonascii
          else
            do dest_end <- sub_p dest_end 2 ;
            do buf <- set_at buf dest_end PCT ;
            do h <- hexdigit_at (byte / 16) ;
            do buf <- set_at buf (dest_end + 1) h ;
            do l <- hexdigit_at (N.land byte 15) ;
            do buf <- set_at buf (dest_end + 2) l ;
            inline_loop fuel buf dest_end src_end rest'
      end
  end.
(** convert.rs:228-276 [try_percent_encode_iri_inline]: the result and the string afterwards.
    [alloc] tells whether [try_reserve] succeeds. *)
Definition try_percent_encode_iri_inline (alloc : bool) (iri : str) : res TryReserveError unit * str :=
  let bytes := utf8s iri in
  let num_nonascii := count_nonascii bytes in
  if Nat.eqb num_nonascii 0 then (Ok tt, iri)
  else if negb alloc then (Err AllocFailed, iri)
  else
    let additional := (num_nonascii * 2)%nat in
    let buf := bytes ++ repeat 0 additional in
    match inline_loop (1 + length bytes) buf (length buf) (length bytes) num_nonascii with
    | Ok buf => match from_utf8 buf with Some s => (Ok tt, s) | None => (Panic, []) end
    | _ => (Panic, [])
    end.
(** types/iri.rs:213-225 [try_encode_to_uri_inline] of an IRI string of type [t]; the
    [debug_assert_eq] is a panic in debug builds. *)
Definition try_encode_to_uri_inline (alloc debug : bool) (t : ty) (iri : str) : res TryReserveError unit * str :=
  match try_percent_encode_iri_inline alloc iri with
  | (Ok _, s) => if debug && negb (is_ok (validate IriSpec t s)) then (Panic, s) else (Ok tt, s)
  | r => r
  end.
(** types/iri.rs:283-297 [try_encode_into_uri] *)
Definition try_encode_into_uri (alloc debug : bool) (t : ty) (iri : str) : res TryReserveError str :=
  match try_encode_to_uri_inline alloc debug t iri with
  | (Ok _, s) => match new_unchecked_justified debug UriSpec t s with Ok u => Ok u | _ => Panic end
  | (Err e, _) => Err e
  | (Panic, _) => Panic
  end.
(** types/iri.rs:319-334 [try_into_uri]: [inr] gives the IRI back. *)
Definition try_into_uri (debug : bool) (t : ty) (iri : str) : may (str + str) :=
  if negb (all_ascii iri) then Ok (inr iri)
  else do u <- new_unchecked_justified debug UriSpec t iri ; Ok (inl u).
