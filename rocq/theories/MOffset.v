(** * Byte-offset model of the code that computes with positions in strings.

    A Rust [&str] is UTF-8, its length and all positions are counted in bytes, and slicing anywhere but
    between two characters panics.  The other files of the model count positions in characters; this
    one follows the code literally: src/parser/trusted.rs, src/components.rs, src/components/authority.rs,
    src/mask_password.rs, src/raw.rs, src/types/generic.rs, src/normalize/{path,pct_case}.rs, src/normalize.rs, with the
    searches of src/parser/str.rs on bytes (MSearch.v), with the memchr crate ([Some m]) or without it ([None]).
    C77 proves that the results are the same. *)
From Verif Require Import Base Chars Utf8 MValidate MTrusted MFormat MWriters MSearch MPct MPath MNormalize MEdit.

(** core: [&s[a..b]] (byte positions) and [s.get(a..b)]. *)
Definition bslice (s : str) (a b : nat) : may str :=
  if Nat.ltb b a then Panic
  else do (x, _) <- str_split_at s b ; do (_, y) <- str_split_at x a ; Ok y.
Definition bget (s : str) (a b : nat) : option str :=
  match bslice s a b with Ok x => Some x | _ => None end.
(** [opt.map(|r| &s[r])] *)
Definition opt_bslice (s : str) (o : option (nat * nat)) : may (option str) :=
  match o with
  | Some (a, b) => do x <- bslice s a b ; Ok (Some x)
  | None => Ok None
  end.
(** core [str::find] with a predicate on characters, of a character and of a string: byte position of the first occurrence. *)
Fixpoint o_find_char (p : N -> bool) (s : str) : option nat :=
  match s with
  | [] => None
  | c :: r => if p c then Some 0%nat else match o_find_char p r with Some n => Some (clen c + n)%nat | None => None end
  end.
Definition o_find_chr (c : N) (s : str) : option nat := position (is1 c) (utf8s s).
Fixpoint o_find_str (pat s : str) : option nat :=
  if starts_with pat s then Some 0%nat
  else match s with
       | [] => None
       | c :: r => match o_find_str pat r with Some n => Some (clen c + n)%nat | None => None end
       end.

Section Searches.
Variable m : option memchr_crate.

(** src/parser/str.rs: the search helpers in either configuration. *)
Definition fs_hole (s : str) (n : N) :=
  match m with Some m => find_split_hole_m m s n | None => find_split_hole_p s n end.
Definition fs4_hole (s : str) (a b c d : N) :=
  match m with Some m => find_split4_hole_m m s a b c d | None => find_split4_hole_p s a b c d end.
Definition fs2 (s : str) (a b : N) :=
  match m with Some m => find_split2_m m s a b | None => find_split2_p s a b end.
Definition fs3 (s : str) (a b c : N) :=
  match m with Some m => find_split3_m m s a b c | None => find_split3_p s a b c end.
Definition rfs2 (s : str) (a b : N) :=
  match m with Some m => rfind_split2_m m s a b | None => rfind_split2_p s a b end.
Definition rfs_hole (s : str) (n : N) :=
  match m with Some m => rfind_split_hole_m m s n | None => rfind_split_hole_p s n end.
Definition rfs (h : list N) (n : N) :=
  match m with Some m => rfind_m m h n | None => rfind_p h n end.

(** ** src/parser/trusted.rs *)
(** trusted.rs:22-27 *)
Definition o_scheme_colon (i : str) : may (str * str) :=
  do r <- fs_hole i COLON ;
  match r with Some (scheme, rest) => Ok (rest, scheme) | None => Panic end.
(** trusted.rs:32-38 *)
Definition o_scheme_colon_opt (i : str) : may (str * option str) :=
  do r <- fs4_hole i COLON SLASH QMARK HASH ;
  match r with
  | Some (scheme, c, rest) => if c =? COLON then Ok (rest, Some scheme) else Ok (i, None)
  | None => Ok (i, None)
  end.
(** trusted.rs:43-56 *)
Definition o_slash_slash_authority_opt (i : str) : may (str * option str) :=
  match strip_prefix [SLASH; SLASH] i with
  | None => Ok (i, None)
  | Some s =>
      do r <- fs3 s SLASH QMARK HASH ;
      match r with Some (authority, rest) => Ok (rest, Some authority) | None => Ok ([], Some s) end
  end.
(** trusted.rs:60-66 *)
Definition o_until_query (i : str) : may (str * str) :=
  do r <- fs2 i QMARK HASH ;
  match r with Some (before, rest) => Ok (rest, before) | None => Ok ([], i) end.
(** trusted.rs:72-87 *)
Definition o_decompose_query_and_fragment (i : str) : may (option str * option str) :=
  match utf8s i with
  | [] => Ok (None, None)
  | b :: _ =>
      if b =? QMARK then
        do rest <- str_from i 1 ;
        do r <- fs_hole rest HASH ;
        match r with Some (q, f) => Ok (Some q, Some f) | None => Ok (Some rest, None) end
      else if b =? HASH then do f <- str_from i 1 ; Ok (None, Some f) else Panic
  end.
(** trusted.rs:95-129 *)
Definition o_decompose (i0 : str) : may Splitter :=
  let len := blen i0 in
  do (i1, sch) <- o_scheme_colon_opt i0 ;
  let scheme_end := match sch with Some s => nonzero (blen s) | None => None end in
  let start := (len - blen i1 + 2)%nat in
  do (i2, auth) <- o_slash_slash_authority_opt i1 ;
  let authority_end := match auth with Some s => nonzero (start + blen s) | None => None end in
  do (i3, _) <- o_until_query i2 ;
  let after_first_prefix := nonzero (len - blen i3 + 1) in
  do (q, f) <- o_decompose_query_and_fragment i3 ;
  let '(query_start, fragment_start) :=
    match q, f with
    | Some _, Some f => (after_first_prefix, nonzero (len - blen f))
    | Some _, None => (after_first_prefix, None)
    | None, Some _ => (None, after_first_prefix)
    | None, None => (None, None)
    end in
  Ok (mkSplitter scheme_end authority_end query_start fragment_start).
(** trusted.rs:144-258 [extract_*] *)
Definition o_extract_scheme (i : str) : may (option str) := do (_, s) <- o_scheme_colon_opt i ; Ok s.
Definition o_extract_scheme_absolute (i : str) : may str := do (_, s) <- o_scheme_colon i ; Ok s.
Definition o_extract_authority (i : str) : may (option str) :=
  do (r, _) <- o_scheme_colon_opt i ; do (_, a) <- o_slash_slash_authority_opt r ; Ok a.
Definition o_extract_authority_absolute (i : str) : may (option str) :=
  do (r, _) <- o_scheme_colon i ; do (_, a) <- o_slash_slash_authority_opt r ; Ok a.
Definition o_extract_authority_relative (i : str) : may (option str) :=
  do (_, a) <- o_slash_slash_authority_opt i ; Ok a.
(** trusted.rs:201-208 *)
Definition o_extract_authority_and_offset (i : str) : may (option (str * nat)) :=
  do (r, scheme) <- o_scheme_colon_opt i ;
  do (_, a) <- o_slash_slash_authority_opt r ;
  match a with
  | None => Ok None
  | Some authority => Ok (Some (authority, match scheme with Some s => (blen s + 3)%nat | None => 2%nat end))
  end.
Definition o_extract_path (i : str) : may str :=
  do (r, _) <- o_scheme_colon_opt i ; do (r, _) <- o_slash_slash_authority_opt r ; do (_, p) <- o_until_query r ; Ok p.
Definition o_extract_path_absolute (i : str) : may str :=
  do (r, _) <- o_scheme_colon i ; do (r, _) <- o_slash_slash_authority_opt r ; do (_, p) <- o_until_query r ; Ok p.
Definition o_extract_path_relative (i : str) : may str :=
  do (r, _) <- o_slash_slash_authority_opt i ; do (_, p) <- o_until_query r ; Ok p.
Definition o_extract_query (i : str) : may (option str) :=
  do (r, _) <- o_until_query i ; do (q, _) <- o_decompose_query_and_fragment r ; Ok q.
(** trusted.rs:266-278 *)
Definition o_extract_query_absolute_iri (debug : bool) (i : str) : may (option str) :=
  do (r, _) <- o_until_query i ;
  if is_empty r then Ok None
  else if debug && negb (match utf8s r with b :: _ => b =? QMARK | [] => false end) then Panic
  else do x <- str_from r 1 ; Ok (Some x).
(** trusted.rs:289-327 *)
Definition o_split_fragment (i : str) : may (str * option str) :=
  do r <- fs_hole i HASH ;
  match r with Some (p, f) => Ok (p, Some f) | None => Ok (i, None) end.
Definition o_extract_fragment (i : str) : may (option str) := do (_, f) <- o_split_fragment i ; Ok f.

(** ** src/components.rs *)
(** components.rs:49-80 *)
Definition o_split_into_major (sp : Splitter) (s : str)
  : may (option str * option str * str * option str * option str) :=
  let '(sr, next_of_scheme) := match scheme_end sp with
    | Some e => (Some (0%nat, e), (e + 1)%nat) | None => (None, 0%nat) end in
  let '(ar, next_of_authority) := match authority_end sp with
    | Some e => (Some ((next_of_scheme + 2)%nat, e), e) | None => (None, next_of_scheme) end in
  let '(fr, end_of_prev_of_fragment) := match fragment_start sp with
    | Some st => (Some (st, blen s), (st - 1)%nat) | None => (None, blen s) end in
  let '(qr, end_of_path) := match query_start sp with
    | Some st => (Some (st, end_of_prev_of_fragment), (st - 1)%nat)
    | None => (None, end_of_prev_of_fragment) end in
  do scheme <- opt_bslice s sr ;
  do authority <- opt_bslice s ar ;
  do fragment <- opt_bslice s fr ;
  do query <- opt_bslice s qr ;
  do path <- bslice s next_of_authority end_of_path ;
  Ok (scheme, authority, path, query, fragment).
(** components.rs:85-197; [sp_path_range], [sp_is_path_empty] and the [sp_has_*] do arithmetic only. *)
Definition o_sp_scheme_str (sp : Splitter) (s : str) : may (option str) :=
  opt_bslice s (match scheme_end sp with Some e => Some (0%nat, e) | None => None end).
Definition o_sp_authority_str (sp : Splitter) (s : str) : may (option str) :=
  opt_bslice s (match authority_end sp with
               | Some e => Some (match scheme_end sp with Some v => (v + 3)%nat | None => 2%nat end, e)
               | None => None end).
Definition o_sp_path_str (sp : Splitter) (s : str) : may str :=
  let '(a, b) := sp_path_range sp (blen s) in bslice s a b.
Definition o_sp_query_str (sp : Splitter) (s : str) : may (option str) :=
  opt_bslice s (match query_start sp with
               | Some st => Some (st, match fragment_start sp with
                                      | Some v => (v - 1)%nat | None => blen s end)
               | None => None end).
Definition o_sp_fragment_str (sp : Splitter) (s : str) : may (option str) :=
  opt_bslice s (match fragment_start sp with
               | Some st => Some (st, blen s) | None => None end).
(** components.rs:214-224 *)
Definition o_to_major (i : str) : may (option str * option str * str * option str * option str) :=
  do sp <- o_decompose i ; o_split_into_major sp i.

(** ** src/parser/trusted/authority.rs, src/components/authority.rs *)
(** trusted/authority.rs:15-32 *)
Definition o_decompose_authority (authority : str) : may AuthorityComponents :=
  do r <- fs_hole authority AT ;
  let '(i, hs) := match r with
                  | Some (u, rest) => (rest, (blen u + 1)%nat)
                  | None => (authority, 0%nat)
                  end in
  do r <- rfs2 i COLON RBRACK ;
  let colon_port_len := match r with
                        | Some (_, suffix) => if starts_with [COLON] suffix then blen suffix else 0%nat
                        | None => 0%nat
                        end in
  Ok (mkAuth authority hs (blen authority - colon_port_len)).
(** components/authority.rs:46-81 *)
Definition o_ac_userinfo (a : AuthorityComponents) : may (option str) :=
  match host_start a with
  | O => Ok None
  | S at_ =>
      do b <- MSearch.byte_at (utf8s (au_str a)) at_ ;
      if b =? AT then do x <- bslice (au_str a) 0 at_ ; Ok (Some x) else Panic
  end.
Definition o_ac_host (a : AuthorityComponents) : may str := bslice (au_str a) (host_start a) (host_end a).
Definition o_ac_reg_name (a : AuthorityComponents) : may (option str) :=
  do h <- o_ac_host a ; Ok (if is_host_reg_name h then Some h else None).
Definition o_ac_port (a : AuthorityComponents) : may (option str) :=
  if Nat.eqb (host_end a) (blen (au_str a)) then Ok None
  else do b <- MSearch.byte_at (utf8s (au_str a)) (host_end a) ;
       if b =? COLON then do x <- bslice (au_str a) (host_end a + 1) (blen (au_str a)) ; Ok (Some x) else Panic.
(** components/authority.rs:25-42 *)
Definition o_authority_components (i : str) : may (option AuthorityComponents) :=
  do r <- o_extract_authority i ;
  match r with Some a => do c <- o_decompose_authority a ; Ok (Some c) | None => Ok None end.
Definition o_from_iri_get_offset (i : str) : may (option (AuthorityComponents * nat)) :=
  do r <- o_extract_authority_and_offset i ;
  match r with Some (a, off) => do c <- o_decompose_authority a ; Ok (Some (c, off)) | None => Ok None end.
(** What a client sees of an authority: [userinfo()], [host()], [reg_name()], [port()]. *)
Definition o_authority_view (i : str) : may (option (option str * str * option str * option str)) :=
  do r <- o_authority_components i ;
  match r with
  | None => Ok None
  | Some a => do u <- o_ac_userinfo a ; do h <- o_ac_host a ; do g <- o_ac_reg_name a ; do p <- o_ac_port a ; Ok (Some (u, h, g, p))
  end.

(** types/generic/normal.rs:196-206 *)
Definition o_to_absolute (debug : bool) (S : Spec) (s : str) : may str :=
  do (p, _) <- o_split_fragment s ;
  do x <- str_to s (blen p) ;
  new_unchecked_justified debug S TAbsolute x.

(** ** src/mask_password.rs *)
(** mask_password.rs:22-38 *)
Definition o_password_range_to_hide (i : str) : may (option (nat * nat)) :=
  do r <- o_authority_components i ;
  match r with
  | None => Ok None
  | Some a =>
      do u <- o_ac_userinfo a ;
      match u with
      | None => Ok None
      | Some userinfo =>
          match o_find_str [SLASH; SLASH] i with
          | None => Panic
          | Some k =>
              let authority_start := (2 + k)%nat in
              let e := (authority_start + blen userinfo)%nat in
              let st := (authority_start + match o_find_chr COLON userinfo with
                                           | Some v => v + 1 | None => blen userinfo end)%nat in
              Ok (Some (st, e))
          end
      end
  end.
(** mask_password.rs:41-59 *)
Definition o_write_with_masked_password {A} (s : str) (st e : nat) (alt : W A) : W unit :=
  (if Nat.leb e (blen s) then wret tt else wpanic) >>
  (wdo l <- lift (str_to s st) ; write l) >>
  (wdo _ <- alt ; wret tt) >>
  (wdo r <- lift (str_from s e) ; write r).
(** mask_password.rs:62-64, 178-185 *)
Definition o_mask_display (i : str) : W unit :=
  wdo r <- lift (o_password_range_to_hide i) ;
  match r with
  | Some (st, e) => o_write_with_masked_password i st e (write [])
  | None => write i
  end.
(** mask_password.rs:195-220: the capacity is computed by subtractions that must not underflow. *)
Definition o_mask_to_dedicated_string (debug alloc : bool) (S : Spec) (t : ty) (i : str) : res TryReserveError str :=
  match o_password_range_to_hide i with
  | Ok None => Ok i
  | Ok (Some (st, e)) =>
      if Nat.ltb e st || Nat.ltb (blen i) (e - st) then Panic
      else if negb alloc then Err AllocFailed
      else match str_to i st, str_from i e with
           | Ok l, Ok r =>
               match new_unchecked_justified debug S t (l ++ r) with Ok x => Ok x | _ => Panic end
           | _, _ => Panic
           end
  | _ => Panic
  end.
(** mask_password.rs:247-292 *)
Definition o_replaced_display {A} (i : str) (f : str -> W A) : W unit :=
  wdo r <- lift (o_password_range_to_hide i) ;
  match r with
  | Some (st, e) =>
      wdo pw <- lift (bslice i st e) ;
      o_write_with_masked_password i st e (f pw)
  | None => write i
  end.
(** alloc [String::drain(a..b)] and [String::replace_range(a..b, with)] *)
Definition o_drain (s : str) (a b : nat) : may str :=
  do _ <- bslice s a b ; do l <- str_to s a ; do r <- str_from s b ; Ok (l ++ r).
Definition o_replace_range (s : str) (a b : nat) (w : str) : may str :=
  do _ <- bslice s a b ; do l <- str_to s a ; do r <- str_from s b ; Ok (l ++ w ++ r).
(** absolute.rs:653-722, normal.rs:899-970, reference.rs:664-738, relative.rs:511-585; the
    subtraction [pw_range.start - 1] must not underflow. *)
Definition o_remove_password_inline (debug : bool) (S : Spec) (t : ty) (i : str) : may str :=
  do r <- o_password_range_to_hide i ;
  match r with
  | None => Ok i
  | Some (st, e) =>
      do separator_colon <- match st with O => Panic | Datatypes.S k => Ok k end ;
      do s <- o_drain i separator_colon e ;
      do _ <- debug_valid debug S t s ; Ok s
  end.
Definition o_remove_nonempty_password_inline (debug : bool) (S : Spec) (t : ty) (i : str) : may str :=
  do r <- o_password_range_to_hide i ;
  match r with
  | None => Ok i
  | Some (st, e) =>
      if negb (Nat.ltb st e) then Ok i
      else
        do _ <- (if debug && negb (match nth_error (utf8s i) (st - 1) with Some c => c =? COLON | None => false end)
                 then Panic else Ok tt) ;
        do s <- o_drain i st e ;
        do _ <- debug_valid debug S t s ; Ok s
  end.

(** ** types/generic.rs:67-103, absolute.rs:732-753 etc. *)
Definition o_replace_domain_impl (alloc : bool) (S : Spec) (i new_host : str) (replace_only_reg_name : bool)
  : may (res TryReserveError (option (nat * nat)) * str) :=
  do r <- o_from_iri_get_offset i ;
  match r with
  | None => Ok (Ok None, i)
  | Some (a, offset) =>
      do old_host <- o_ac_host a ;
      let hs := (offset + host_start a)%nat in
      let old_host_end := (hs + blen old_host)%nat in
      if is_err (validate_host S new_host) then Ok (Ok None, i)
      else if replace_only_reg_name && negb (is_host_reg_name old_host) then Ok (Ok None, i)
      else if Nat.leb (blen old_host) (blen new_host) && negb alloc then Ok (Err AllocFailed, i)
      else
        do s <- o_replace_range i hs old_host_end new_host ;
        Ok (Ok (Some (hs, (hs + blen new_host)%nat)), s)
  end.
Definition o_try_replace_host_impl (debug alloc : bool) (S : Spec) (t : ty) (i new_host : str) (only : bool)
  : may (res TryReserveError (option str) * str) :=
  do (r, s) <- o_replace_domain_impl alloc S i new_host only ;
  do _ <- debug_valid debug S (replace_host_asserts t) s ;
  match r with
  | Ok (Some (a, b)) => do h <- bslice s a b ; Ok (Ok (Some h), s)
  | Ok None => Ok (Ok None, s)
  | Err e => Ok (Err e, s)
  | Panic => Panic
  end.

(** ** src/raw.rs *)
(** raw.rs:28-32: [truncate] panics off a character boundary. *)
Definition o_remove_fragment (s : str) : may str :=
  match o_find_chr HASH s with Some n => str_to s n | None => Ok s end.
(** raw.rs:16-23 *)
Definition o_raw_set_fragment (s : str) (fragment : option str) : may str :=
  do s <- o_remove_fragment s ;
  Ok (match fragment with Some f => (s ++ [HASH]) ++ f | None => s end).
(** raw.rs:38-56 *)
Definition o_split_fragment_owned (s : str) : may (str * option str) :=
  do r <- o_split_fragment s ;
  match r with
  | (_, None) => Ok (s, None)
  | (prefix, Some _) =>
      let prefix_len := blen prefix in
      do (head, fragment) <- str_split_at s (prefix_len + 1) ;
      let '(s, hash) := pop head in
      match hash with
      | Some c => if (c =? HASH) && Nat.eqb (blen s) prefix_len then Ok (s, Some fragment) else Panic
      | None => Panic
      end
  end.

(** ** src/normalize/pct_case.rs *)
(** trusted.rs:447-457: two bytes are read, then [&s[2..]]. *)
Definition o_take_xdigits2 (s : str) : may (N * str) :=
  match utf8s s with
  | u :: l :: _ => do v <- hexdigits_to_byte u l ; do r <- str_from s 2 ; Ok (v, r)
  | _ => Panic
  end.
(** pct_case.rs:133-172 *)
Fixpoint o_read_continue (n : nat) (buf : list N) (rest : str) : W cont_result :=
  match n with
  | O => wret (CDone buf rest)
  | S n =>
      match rest with
      | c :: after =>
          if c =? PCT then
            wdo (byte, after_triplet) <- lift (o_take_xdigits2 after) ;
            if negb (is_utf8_byte_continue byte) then write_triplets buf >> wret (CNext rest)
            else o_read_continue n (buf ++ [byte]) after_triplet
          else write_triplets buf >> write [c] >> wret (CNext after)
      | [] => write_triplets buf >> wret CBreak
      end
  end.
(** pct_case.rs:90-224: after an invalid sequence the rest is [&after_first_triplet[(len-1)*3..]], in bytes. *)
Fixpoint o_pct_loop (S : Spec) (fuel : nat) (rest : str) : W unit :=
  match fuel with
  | O => wpanic
  | Datatypes.S fuel =>
      if is_empty rest then wret tt else
      wdo r <- lift (fs_hole rest PCT) ;
      match r with
      | None => write rest
      | Some (prefix, after_percent) =>
          write prefix >>
          wdo (first, after_first) <- lift (o_take_xdigits2 after_percent) ;
          if first <? 128 then
            (if is_ascii_unreserved first then write [first] else write (pct_upper first)) >>
            o_pct_loop S fuel after_first
          else
            match expected_len first with
            | None => write (pct_upper first) >> o_pct_loop S fuel after_first
            | Some len =>
                wdo r <- o_read_continue (len - 1) [first] after_first ;
                match r with
                | CBreak => wret tt
                | CNext rest => o_pct_loop S fuel rest
                | CDone buf rest =>
                    wdo oc <- lift (into_char_trusted buf) ;
                    match oc with
                    | Some c =>
                        (if is_unreserved S c then write [c] else write_triplets buf) >>
                        o_pct_loop S fuel rest
                    | None =>
                        wdo rest' <- lift (str_from after_first ((len - 1) * 3)) ;
                        write_triplets buf >> o_pct_loop S fuel rest'
                    end
                end
            end
      end
  end.
Definition o_PctCaseNormalized (S : Spec) (s : str) : W unit := o_pct_loop S (1 + blen s)%nat s.
(** pct_case.rs:17-19 *)
Definition o_is_pct_case_normalized (S : Spec) (s : str) : may bool := eq_str_display s (o_PctCaseNormalized S s).
(** pct_case.rs:251-288 *)
Fixpoint o_ascii_host_loop (fuel : nat) (rest : str) : W unit :=
  match fuel with
  | O => wpanic
  | S fuel =>
      if is_empty rest then wret tt else
      wdo r <- lift (fs_hole rest PCT) ;
      match r with
      | None => write_lower rest
      | Some (prefix, after_percent) =>
          write_lower prefix >>
          wdo (first, after) <- lift (o_take_xdigits2 after_percent) ;
          if negb (is_ascii first) then wpanic
          else (if is_ascii_unreserved first then write [to_lower first] else write (pct_upper first)) >>
               o_ascii_host_loop fuel after
      end
  end.
Definition o_NormalizedAsciiOnlyHost (s : str) : W unit := o_ascii_host_loop (1 + blen s)%nat s.
(** trusted.rs:465-481 *)
Fixpoint o_is_ascii_only_host_loop (fuel : nat) (host : str) : may bool :=
  match fuel with
  | O => Panic
  | S fuel =>
      match o_find_char (fun c => negb (is_ascii c) || (c =? PCT)) host with
      | None => Ok true
      | Some pos =>
          do b <- MSearch.byte_at (utf8s host) pos ;
          if negb (b =? PCT) then Ok false
          else do after_pct <- str_from host (pos + 1) ;
               do (byte, rest) <- o_take_xdigits2 after_pct ;
               if negb (is_ascii byte) then Ok false else o_is_ascii_only_host_loop fuel rest
      end
  end.
Definition o_is_ascii_only_host (host : str) : may bool := o_is_ascii_only_host_loop (1 + blen host)%nat host.
(** normalize.rs:500-524 *)
Definition o_normalize_host_port (S : Spec) (hp : str) : W unit :=
  let hp := match strip_suffix_char COLON hp with Some x => x | None => hp end in
  wdo b <- lift (o_is_ascii_only_host hp) ;
  if b then o_NormalizedAsciiOnlyHost hp else o_PctCaseNormalized S hp.
(** normalize.rs:485-497 *)
Definition o_normalize_authority (S : Spec) (a : str) : W unit :=
  wdo r <- lift (rfs_hole a AT) ;
  match r with
  | Some (userinfo, host_port) =>
      o_PctCaseNormalized S userinfo >> write [AT] >> o_normalize_host_port S host_port
  | None => o_normalize_host_port S a
  end.
(** trusted.rs:345-425 [is_normalized] *)
Definition o_is_normalized (S : Spec) (i : str) (mode : NormalizednessCheckMode) : may bool :=
  do (i, scheme) <- o_scheme_colon i ;
  do (after_authority, authority) <- o_slash_slash_authority_opt i ;
  do (_, path) <- o_until_query after_authority ;
  if existsb is_upper (utf8s scheme) then Ok false else
  do authority_ok <-
    match authority with
    | None => Ok true
    | Some a =>
        do ac <- o_decompose_authority a ;
        do host <- o_ac_host ac ;
        do ao <- o_is_ascii_only_host host ;
        do hn <- (if ao : bool then eq_str_display host (o_NormalizedAsciiOnlyHost host)
                  else o_is_pct_case_normalized S host) ;
        if negb hn then Ok false else
        do u <- o_ac_userinfo ac ;
        match u with
        | Some u => o_is_pct_case_normalized S u
        | None => Ok true
        end
    end ;
  if negb authority_ok then Ok false else
  let strip p := match strip_prefix (lit "/.//") p with Some r => r | None => p end in
  let span := if is_some authority then Some path
              else match mode with
                   | CkDefault => Some (strip path)
                   | CkRfc3986 => Some path
                   | CkPreserve => if starts_with [SLASH] path then Some (strip path) else None
                   end in
  if match span with
     | Some p => existsb (fun g => seqb g [DOT] || seqb g [DOT; DOT]) (split_slash p)
     | None => false
     end
  then Ok false
  else o_is_pct_case_normalized S after_authority.

(** ** src/normalize/path.rs *)
(** path.rs:53-75 *)
Definition o_from_paths_to_be_resolved (base reference : str) : may ptn :=
  if starts_with [SLASH] reference then Ok (mkP reference None)
  else match rfs (utf8s base) SLASH with
       | Some last_slash_pos =>
           do f <- str_to base (last_slash_pos + 1) ;
           Ok (mkP f (if is_empty reference then None else Some reference))
       | None => Ok (mkP reference None)
       end.
End Searches.

(** path.rs:91-93 *)
Definition o_p_len (p : ptn) : nat :=
  (blen (front p) + match back p with Some b => blen b | None => 0 end)%nat.
(** path.rs:107-114: a byte of the path. *)
Definition o_byte_at (p : ptn) (i : nat) : may (option N) :=
  if Nat.ltb i (blen (front p)) then do b <- MSearch.byte_at (utf8s (front p)) i ; Ok (Some b)
  else Ok (match back p with Some b => nth_error (utf8s b) (i - blen (front p)) | None => None end).
(** path.rs:119-134 *)
Definition o_find_next_slash_from (p : ptn) (start : nat) : may (option nat) :=
  if Nat.leb (blen (front p)) start then
    match back p with
    | None => Ok None
    | Some b =>
        do t <- str_from b (start - blen (front p)) ;
        Ok (match o_find_chr SLASH t with Some k => Some (start + k)%nat | None => None end)
    end
  else
    do t <- str_from (front p) start ;
    match o_find_chr SLASH t with
    | Some k => Ok (Some (start + k)%nat)
    | None => if is_some (back p) then Panic else Ok None
    end.
(** path.rs:137-148: [s.get(n..)] gives the empty string off a boundary, [&front[len..]] panics. *)
Definition o_remove_start (p : ptn) (len : nat) : may ptn :=
  if Nat.leb (blen (front p)) len then
    Ok (mkP (match back p with
         | Some b => match str_from b (len - blen (front p)) with Ok x => x | _ => [] end
         | None => []
         end) None)
  else do f <- str_from (front p) len ; Ok (mkP f (back p)).
(** path.rs:638-655 *)
Definition o_segment (p : ptn) (g : pseg) : may str :=
  match bget (front p) (seg_start g) (seg_end g) with
  | Some x => Ok x
  | None =>
      match back p with
      | None => Panic
      | Some b =>
          if Nat.leb (blen (front p)) (seg_start g) && Nat.leb (blen (front p)) (seg_end g)
          then bslice b (seg_start g - blen (front p)) (seg_end g - blen (front p))
          else Panic
      end
  end.
Definition o_seg_kind (p : ptn) (g : pseg) : may SegmentKind :=
  do s <- o_segment p g ; Ok (from_segment s).
(** path.rs:678-702 *)
Definition o_iter_next (p : ptn) (cursor : nat) : may (option (pseg * nat)) :=
  do ob <- o_byte_at p cursor ;
  match ob with
  | None => Ok None
  | Some c =>
      let lead := (c =? SLASH) in
      let st := if lead then (cursor + 1)%nat else cursor in
      do oe <- o_find_next_slash_from p st ;
      let e := match oe with Some e => e | None => o_p_len p end in
      Ok (Some (mkSeg lead st e, e))
  end.
(** path.rs:154-169 *)
Fixpoint o_remove_ignorable_prefix (fuel : nat) (p : ptn) : may ptn :=
  match fuel with
  | O => Panic
  | S fuel =>
      do on <- o_iter_next p 0 ;
      match on with
      | None => Ok p
      | Some (g, _) =>
          if has_leading_slash g then Ok p
          else
            do k <- o_seg_kind p g ;
            match k with
            | Normal => Ok p
            | _ => let skip := Nat.min (blen (front p)) (seg_end g + 1) in
                   do p' <- o_remove_start p skip ;
                   o_remove_ignorable_prefix fuel p'
            end
      end
  end.
(** path.rs:302-316 *)
Fixpoint o_skipped_len (fuel : nat) (p : ptn) (cursor last : nat) : may nat :=
  match fuel with
  | O => Panic
  | S fuel =>
      do on <- o_iter_next p cursor ;
      match on with
      | None => Ok last
      | Some (g, cursor') =>
          do k <- o_seg_kind p g ;
          match k with
          | Normal => Ok last
          | _ => if negb (has_leading_slash g) then Panic else o_skipped_len fuel p cursor' (seg_end g)
          end
      end
  end.
(** path.rs:331-374; [queue_step] does not touch strings. *)
Fixpoint o_queue_loop (fuel : nat) (p : ptn) (cursor : nat) (q : qstate) : may qstate :=
  match fuel with
  | O => Panic
  | S fuel =>
      do on <- o_iter_next p cursor ;
      match on with
      | None => Ok q
      | Some (g, cursor') =>
          do name <- o_segment p g ;
          o_queue_loop fuel p cursor' (queue_step q (from_segment name) g name)
      end
  end.
Section Write.
Variable m : option memchr_crate.
Variable S : Spec.
Variable mode : NormalizationMode.
Variable auth : bool.   (* authority_is_present *)
(** path.rs:254-278, 396-436 *)
Definition o_write_seg (s : str) : W unit :=
  if case_pct_normalization mode then o_PctCaseNormalized m S s else write s.
Definition o_emit_segment (only : option bool) (first_lead : bool) (name : str) : W (option bool) :=
  wdo only' <- match only with
               | None =>
                   (if first_lead then write [SLASH] else wret tt) >>
                   wret (Some (first_lead && is_empty name))
               | Some only_a_slash =>
                   wdo o <- (if only_a_slash && negb auth
                             then write (lit "./") >> wret (Some false)
                             else wret (Some only_a_slash)) ;
                   write [SLASH] >> wret o
               end ;
  o_write_seg name >> wret only'.
Fixpoint o_emit_all (only : option bool) (first_lead : bool) (names : list (option str))
  : W (option bool) :=
  match names with
  | [] => wret only
  | None :: r => o_emit_all only first_lead r
  | Some n :: r => wdo only' <- o_emit_segment only first_lead n ; o_emit_all only' first_lead r
  end.
(** path.rs:285-391 *)
Definition o_resolve_and_write_path_prefixes (p : ptn) (only : option bool) (may_have : bool)
  : W (option (ptn * option bool * bool)) :=
  wdo e <- lift (p_is_empty p) ;
  if e then wpanic else
  if negb may_have then wpanic else
  wdo sk <- lift (o_skipped_len (1 + o_p_len p) p 0 0) ;
  wdo p <- lift (o_remove_start p sk) ;
  wdo e <- lift (p_is_empty p) ;
  if e then
    (if negb auth && match only with Some true => true | _ => false end
     then write (lit ".//") else write [SLASH]) >> wret None
  else
    wdo q <- lift (o_queue_loop (1 + o_p_len p) p 0
                     (mkQ (repeat None QUEUE_SIZE) false 0 0 may_have)) ;
    wdo only' <- o_emit_all only (first_leading q) (queue q) ;
    wdo p' <- lift (o_remove_start p (resolved_end q)) ;
    wret (Some (p', only', flag q)).
(** path.rs:219-236 *)
Fixpoint o_resolve_loop (fuel : nat) (p : ptn) (only : option bool) (may_have : bool)
  : W (option (ptn * option bool)) :=
  match fuel with
  | O => wpanic
  | Datatypes.S fuel =>
      wdo e <- lift (p_is_empty p) ;
      if negb e && may_have then
        wdo r <- o_resolve_and_write_path_prefixes p only may_have ;
        match r with
        | None => wret None
        | Some (p', only', may_have') => o_resolve_loop fuel p' only' may_have'
        end
      else wret (Some (p, only))
  end.
(** path.rs:174-282 *)
Definition o_fmt_write_normalize (p : ptn) : W unit :=
  wdo e <- lift (p_is_empty p) ;
  if e then wret tt
  else if (match mode with MPreserve => true | _ => false end) && negb auth
          && negb (starts_with_slash p) then
    o_PctCaseNormalized m S (front p) >>
    match back p with Some b => o_PctCaseNormalized m S b | None => wret tt end
  else
    wdo p <- lift (o_remove_ignorable_prefix (1 + o_p_len p) p) ;
    wdo e <- lift (p_is_empty p) ;
    if e then (if auth then write [SLASH] else wret tt)
    else
      wdo r <- o_resolve_loop (1 + o_p_len p) p None true ;
      match r with
      | None => wret tt
      | Some (p, only) =>
          wdo e <- lift (p_is_empty p) ;
          if e then wret tt
          else
            wdo p <- (if auth then wret p
                      else match only with
                           | None =>
                               if (seqb (front p) [SLASH]
                                   && match back p with Some b => starts_with [SLASH] b | None => false end)
                                  || starts_with [SLASH; SLASH] (front p)
                               then write (lit "/.//") >> lift (o_remove_start p 2)
                               else wret p
                           | Some true =>
                               if starts_with_slash p
                               then write (lit ".//") >> lift (o_remove_start p 1)
                               else wret p
                           | Some false => wret p
                           end) ;
            o_write_seg (front p) >>
            match back p with Some b => o_write_seg b | None => wret tt end
      end.
End Write.
Section Displayed.
Variable m : option memchr_crate.
(** path.rs:441-490: the [PrefixRetriever] keeps the first three bytes. *)
Definition o_prefix_write (buf : list N) (s : str) : wstep (list N) :=
  if negb (is_empty s) && Nat.leb 3 (length buf) then Stop buf
  else Cont (firstn 3 (buf ++ utf8s s)).
Definition o_ensure_rfc3986_normalizable_with_authority_absent (p : ptn) : may bool :=
  match run_display o_prefix_write [] (o_fmt_write_normalize m UriSpec MNone false p) with
  | (_, OPanic) => Panic
  | (buf, _) => Ok (negb (seqb buf (lit "/./")))
  end.
(** path.rs:515-592 *)
Definition o_from_path_to_display (S : Spec) (p : ptn) (mode : NormalizationMode) (auth : bool)
  : may PathCharacteristic :=
  match run_display pc_write (None, None) (o_fmt_write_normalize m S mode auth p) with
  | (_, OPanic) => Panic
  | (_, OOk) => Ok CommonRelative
  | ((Some r, _), OErr) => Ok r
  | ((None, _), OErr) => Panic
  end.

(** ** src/normalize.rs, src/resolve.rs *)
(** normalize.rs:192-293 *)
Definition o_create_normalization_input (r_iri : str) (r : Splitter) (b_iri : str) (b : Splitter)
  : may NormalizationInput :=
  let t := if sp_has_scheme r then RtScheme
           else if sp_has_authority r then RtAuthority
           else if negb (sp_is_path_empty r (blen r_iri)) then RtPath
           else if sp_has_query r then RtQuery
           else RtNone in
  do path <-
    match t with
    | RtScheme | RtAuthority => do p <- o_sp_path_str r r_iri ; Ok (PNeeds (from_single_path p))
    | RtPath =>
        do r_path <- o_sp_path_str r r_iri ;
        if starts_with [SLASH] r_path then Ok (PNeeds (from_single_path r_path))
        else
          do b_path <- o_sp_path_str b b_iri ;
          let b_path := if sp_has_authority b && is_empty b_path then [SLASH] else b_path in
          do p <- o_from_paths_to_be_resolved m b_path r_path ;
          Ok (PNeeds p)
    | RtQuery | RtNone => do p <- o_sp_path_str b b_iri ; Ok (PDone p)
    end ;
  do rs <- o_sp_scheme_str r r_iri ;
  do scheme <- match rs with
               | Some s => Ok s
               | None => do bs <- o_sp_scheme_str b b_iri ;
                         match bs with Some s => Ok s | None => Panic end
               end ;
  do authority <- choose_then t RtAuthority (o_sp_authority_str r r_iri) (o_sp_authority_str b b_iri) ;
  do query <- choose_then t RtQuery (o_sp_query_str r r_iri) (o_sp_query_str b b_iri) ;
  do fragment <- o_sp_fragment_str r r_iri ;
  Ok (mkInput scheme authority path query fragment MNone).
(** normalize.rs:296-341 *)
Definition o_input_from (i : str) : may NormalizationInput :=
  do (s, a, p, q, f) <- o_to_major m i ;
  match s with
  | None => Panic
  | Some s => Ok (mkInput s a (PNeeds (from_single_path p)) q f MNone)
  end.
Definition o_resolve (base reference : str) : may NormalizationInput :=
  do b <- o_decompose m base ;
  do r <- o_decompose m reference ;
  o_create_normalization_input reference r base b.
Definition o_normalize (keep : bool) (i : str) : may NormalizationInput :=
  do n <- o_input_from i ; Ok (set_mode n (if keep then MPreserve else MDefault)).
(** normalize.rs:356-364 *)
Definition o_ensure_rfc3986_normalizable (n : NormalizationInput) : may bool :=
  if is_some (n_authority n) then Ok true
  else match n_path n with
       | PDone _ => Ok true
       | PNeeds p => o_ensure_rfc3986_normalizable_with_authority_absent p
       end.
(** normalize.rs:402-466 *)
Definition o_fmt_normalized (S : Spec) (n : NormalizationInput) : W unit :=
  let cp := case_pct_normalization (n_mode n) in
  (if cp then normalize_scheme (n_scheme n) else write (n_scheme n)) >>
  write [COLON] >>
  match n_authority n with
  | Some a => write [SLASH; SLASH] >> if cp then o_normalize_authority m S a else write a
  | None => wret tt
  end >>
  match n_path n with
  | PDone s =>
      if cp then o_fmt_write_normalize m S (n_mode n) (is_some (n_authority n)) (from_single_path s)
      else write s
  | PNeeds p => o_fmt_write_normalize m S (n_mode n) (is_some (n_authority n)) p
  end >>
  match n_query n with
  | Some q => write [QMARK] >> if cp then o_PctCaseNormalized m S q else write q
  | None => wret tt
  end >>
  match n_fragment n with
  | Some f => write [HASH] >> if cp then o_PctCaseNormalized m S f else write f
  | None => wret tt
  end.
End Displayed.
