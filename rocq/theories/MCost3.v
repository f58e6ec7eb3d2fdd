(** * Percent-encoding normalization, the check for normal form and percent-decoding, with a counter of the characters looked at and
    written.
    The functions follow MPct.v, MNormalize.v and MEncode.v line by line.  The counted unit is one character looked at or written.
    A check that stops at the first difference is counted as if it went on to the end, so these are upper bounds. *)
From Verif Require Import Base Chars Utf8 MValidate MTrusted MFormat MPct MPath MNormalize MEncode MCost.
Open Scope nat_scope.

(** What a [Display] writes, and its cost. *)
Definition KW (A : Type) : Type := W A * nat.
Definition kwret {A} (a : A) : KW A := (wret a, 0).
Definition kwpanic {A} : KW A := (wpanic, 0).
Definition kwrite (s : str) : KW unit := (write s, length s).
Definition kwbind {A B} (x : KW A) (f : A -> KW B) : KW B :=
  match snd (fst x) with
  | Ret a => let r := f a in (wbind (fst x) (fun _ => fst r), snd x + snd r)
  | _ => (wbind (fst x) (fun a => fst (f a)), snd x)
  end.
Notation "'kwdo' p <- x ; y" := (kwbind x (fun p => y)) (at level 200, p pattern, x at level 100, y at level 200).
(** A pure computation inside of a [fmt]. *)
Definition klift {A} (x : K (may A)) : KW A := (lift (fst x), snd x).
Definition kpure {A} (x : K A) : KW A := (wret (fst x), snd x).

(** trusted.rs:447-457 *)
Definition k_take_xdigits2 (s : str) : K (may (N * str)) := (take_xdigits2 s, Nat.min 2 (length s)).
(** pct_case.rs: [write!(f, "%{:02X}", b)] for each byte. *)
Definition k_write_triplets (bs : list N) : KW unit := (write_triplets bs, 3 * length bs).
(** pct_case.rs:133-172 *)
Fixpoint k_read_continue (n : nat) (buf : list N) (rest : str) : KW cont_result :=
  match n with
  | O => kwret (CDone buf rest)
  | S n =>
      match rest with
      | c :: after =>
          kwdo _ <- kpure (tt, 1) ;
          if (c =? PCT)%N then
            kwdo (byte, after_triplet) <- klift (k_take_xdigits2 after) ;
            if negb (is_utf8_byte_continue byte) then kwdo _ <- k_write_triplets buf ; kwret (CNext rest)
            else k_read_continue n (buf ++ [byte]) after_triplet
          else kwdo _ <- k_write_triplets buf ; kwdo _ <- kwrite [c] ; kwret (CNext after)
      | [] => kwdo _ <- k_write_triplets buf ; kwret CBreak
      end
  end.
(** pct_case.rs:90-224 *)
Fixpoint k_pct_loop (S : Spec) (fuel : nat) (rest : str) : KW unit :=
  match fuel with
  | O => kwpanic
  | S fuel =>
      if is_empty rest then kwret tt else
      kwdo o <- kpure (k_find_split_hole rest PCT) ;
      match o with
      | None => kwrite rest
      | Some (prefix, after_percent) =>
          kwdo _ <- kwrite prefix ;
          kwdo (first, after_first) <- klift (k_take_xdigits2 after_percent) ;
          if (first <? 128)%N then
            kwdo _ <- (if is_ascii_unreserved first then kwrite [first] else kwrite (pct_upper first)) ;
            k_pct_loop S fuel after_first
          else
            match expected_len first with
            | None => kwdo _ <- kwrite (pct_upper first) ; k_pct_loop S fuel after_first
            | Some len =>
                kwdo r <- k_read_continue (len - 1) [first] after_first ;
                match r with
                | CBreak => kwret tt
                | CNext rest => k_pct_loop S fuel rest
                | CDone buf rest =>
                    kwdo oc <- klift (kret (into_char_trusted buf)) ;
                    match oc with
                    | Some c =>
                        kwdo _ <- (if is_unreserved S c then kwrite [c] else k_write_triplets buf) ;
                        k_pct_loop S fuel rest
                    | None =>
                        kwdo rest' <- klift (kret (slice_p after_first ((len - 1) * 3) (length after_first))) ;
                        kwdo _ <- k_write_triplets buf ; k_pct_loop S fuel rest'
                    end
                end
            end
      end
  end.
Definition k_PctCaseNormalized (S : Spec) (s : str) : KW unit := k_pct_loop S (1 + length s) s.
(** pct_case.rs:251-288 *)
Definition k_write_lower (s : str) : KW unit := (write_lower s, length s).
Fixpoint k_ascii_host_loop (fuel : nat) (rest : str) : KW unit :=
  match fuel with
  | O => kwpanic
  | S fuel =>
      if is_empty rest then kwret tt else
      kwdo o <- kpure (k_find_split_hole rest PCT) ;
      match o with
      | None => k_write_lower rest
      | Some (prefix, after_percent) =>
          kwdo _ <- k_write_lower prefix ;
          kwdo (first, after) <- klift (k_take_xdigits2 after_percent) ;
          if negb (is_ascii first) then kwpanic
          else kwdo _ <- (if is_ascii_unreserved first then kwrite [to_lower first] else kwrite (pct_upper first)) ;
               k_ascii_host_loop fuel after
      end
  end.
Definition k_NormalizedAsciiOnlyHost (s : str) : KW unit := k_ascii_host_loop (1 + length s) s.
(** trusted.rs:465-481 *)
Fixpoint k_ascii_only_loop (fuel : nat) (host : str) : K (may bool) :=
  match fuel with
  | O => kret Panic
  | S fuel =>
      kdo o <- k_first (fun c => negb (is_ascii c) || (c =? PCT)%N) host ;
      match o with
      | None => kret (Ok true)
      | Some (_, c, after_pct) =>
          if negb (c =? PCT)%N then kret (Ok false)
          else rdo (byte, rest) <- k_take_xdigits2 after_pct ;
               if negb (is_ascii byte) then kret (Ok false) else k_ascii_only_loop fuel rest
      end
  end.
Definition k_is_ascii_only_host (host : str) : K (may bool) := k_ascii_only_loop (1 + length host) host.
(** format.rs:116-137: comparing what is written with the characters of [s]. *)
Definition k_eq_str_display {A} (s : str) (d : KW A) : K (may bool) := (eq_str_display s (fst d), snd d + length s).
(** pct_case.rs:17-19 *)
Definition k_is_pct_case_normalized (S : Spec) (s : str) : K (may bool) := k_eq_str_display s (k_PctCaseNormalized S s).
(** [str::split('/')], and for each segment a comparison with "." and "..". *)
Definition k_dots (p : str) : K bool :=
  (existsb (fun g => seqb g [DOT] || seqb g [DOT; DOT]) (split_slash p), length p + 3 * length (split_slash p)).
(** trusted.rs:345-425 *)
Definition k_is_normalized (S : Spec) (i : str) (mode : NormalizednessCheckMode) : K (may bool) :=
  rdo (i, scheme) <- k_scheme_colon i ;
  kdo (after_authority, authority) <- k_slash_slash_authority_opt i ;
  kdo (_, path) <- k_until_query after_authority ;
  kdo up <- (existsb is_upper scheme, count_first is_upper scheme) ;
  if (up : bool) then kret (Ok false) else
  rdo authority_ok <-
    match authority with
    | None => kret (Ok true)
    | Some a =>
        kdo ac <- k_decompose_authority a ;
        rdo host <- kret (ac_host ac) ;
        rdo ao <- k_is_ascii_only_host host ;
        rdo hn <- (if ao : bool then k_eq_str_display host (k_NormalizedAsciiOnlyHost host)
                   else k_is_pct_case_normalized S host) ;
        if negb hn then kret (Ok false) else
        rdo u <- kret (ac_userinfo ac) ;
        match u with
        | Some u => k_is_pct_case_normalized S u
        | None => kret (Ok true)
        end
    end ;
  if negb authority_ok then kret (Ok false) else
  let strip p := kdo o <- k_strip (lit "/.//") p ; kret (match o with Some r => r | None => p end) in
  kdo span <- (if is_some authority then kret (Some path)
               else match mode with
                    | CkDefault => kdo r <- strip path ; kret (Some r)
                    | CkRfc3986 => kret (Some path)
                    | CkPreserve => kdo b <- k_starts [SLASH] path ; if (b : bool) then kdo r <- strip path ; kret (Some r) else kret None
                    end) ;
  kdo dots <- match span with Some p => k_dots p | None => kret false end ;
  if (dots : bool) then kret (Ok false)
  else k_is_pct_case_normalized S after_authority.

(** ** Percent-decoding *)
(** str.rs:339-359 *)
Definition k_strip_decode (s : list N) : K (may (option N * list N)) := (strip_decode_xdigits2 s, 2 * Nat.min 2 (length s)).
(** decode.rs:239-246, 293-327 *)
Definition k_fragments_next (rest : list N) : K (may (option (DecodedFragment * list N))) :=
  match rest with
  | [] => kret (Ok None)
  | c :: after =>
      kdo _ <- (tt, 1) ;
      if (c =? PCT)%N then
        rdo (decoded, rest) <- k_strip_decode after ;
        kret match decoded with
             | Some d => Ok (Some (DecodedByte d, rest))
             | None => Ok (Some (StrayPercent, after))
             end
      else
        kdo o <- k_first (N.eqb PCT) after ;
        kret match o with
             | None => Ok (Some (Direct rest, []))
             | Some (before, pct, tail) => Ok (Some (Direct (c :: before), pct :: tail))
             end
  end.
Fixpoint k_fragments_collect (fuel : nat) (rest : list N) : K (may (list DecodedFragment)) :=
  match fuel with
  | O => kret Panic
  | S fuel =>
      rdo r <- k_fragments_next rest ;
      match r with
      | None => kret (Ok [])
      | Some (f, rest) => rdo fs <- k_fragments_collect fuel rest ; kret (Ok (f :: fs))
      end
  end.
Definition k_bytes_fragments (b : list N) : K (may (list DecodedFragment)) := k_fragments_collect (1 + length b) b.
(** decode.rs:84-108 *)
Fixpoint k_non_allocating_loop (fuel : nat) (rest : list N) : K (may (option (nat * N * list N))) :=
  match fuel with
  | O => kret Panic
  | S fuel =>
      if is_empty rest then kret (Ok None) else
      kdo o <- k_find_split_hole rest PCT ;
      match o with
      | None => kret (Ok None)
      | Some (before, after_pct) =>
          rdo (decoded, rest) <- k_strip_decode after_pct ;
          match decoded with
          | Some d => kret (Ok (Some (length before, d, rest)))
          | None => k_non_allocating_loop fuel after_pct
          end
      end
  end.
(** decode.rs:158-171.  [result] only grows: appending counts the characters appended. *)
Fixpoint k_into_bytes_loop (fuel : nat) (result rest : list N) : K (may (list N)) :=
  match fuel with
  | O => kret Panic
  | S fuel =>
      if is_empty rest then kret (Ok result) else
      kdo o <- k_find_split_hole rest PCT ;
      match o with
      | None => (Ok (result ++ rest), length rest)
      | Some (no_pct, after_pct) =>
          rdo (decoded, rest) <- k_strip_decode after_pct ;
          kdo _ <- (tt, length no_pct + 1) ;
          k_into_bytes_loop fuel (result ++ no_pct ++ match decoded with Some d => [d] | None => [] end) rest
      end
  end.
(** decode.rs:123-130, 147-174 *)
Definition k_to_bytes (b : list N) : K (may (option (list N))) :=
  rdo r <- k_non_allocating_loop (1 + length b) b ; kret (Ok (match r with None => Some b | Some _ => None end)).
Definition k_into_bytes (b : list N) : K (may (list N)) :=
  rdo r <- k_non_allocating_loop (1 + length b) b ;
  match r with
  | None => kret (Ok b)
  | Some (prefix_len, decoded, rest) =>
      rdo prefix <- (slice_p b 0 prefix_len, prefix_len + 1) ;
      k_into_bytes_loop (1 + length rest) (prefix ++ [decoded]) rest
  end.
